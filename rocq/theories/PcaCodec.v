(** Encoding and decoding whole images. *)
From Coq Require Import Reals Lra Lia Psatz.
From Verif Require Import Base ResultLib ListLib GeomModel GeomBase FrameModel LidModel LidReturn NdArray NdArrayProofs TilingModel TilingSpec TilingProofs
  PcaModel PcaSpec PcaLinear PcaTiles.
Open Scope R_scope.

(** ** A row *)
Definition qz (v q : R) : Z := round_even (clip_by_value v (IZR int_min * q) (IZR int_max * q) / q).
Lemma quantize_qz v q : 0 < q -> quantize v q = Ok (qz v q). Proof. apply quantize_pos. Qed.
Lemma nth_combine_map {A B C} (f : A * B -> C) (a : list A) (b : list B) da db dc i : length a = length b -> (i < length a)%nat ->
  nth i (map f (combine a b)) dc = f (nth i a da, nth i b db).
Proof.
  intros E I. rewrite (nth_indep _ dc (f (da, db))) by (rewrite map_length, combine_length; lia). rewrite map_nth. now rewrite combine_nth.
Qed.
Definition code_row (qs : list R) (cs : list R) : list Z := map (fun '(v, q) => qz v q) (combine cs qs).
Lemma quantize_row_ok cfg row : Forall (fun q => 0 < q) (quantization cfg) -> length row = length (quantization cfg) ->
  quantize_row cfg row = Ok (code_row (quantization cfg) row).
Proof.
  intros Q L. unfold quantize_row. rewrite L, Nat.eqb_refl. apply mapM_ok. intros [v q] H. apply in_combine_r in H.
  apply quantize_qz. rewrite Forall_forall in Q. now apply Q.
Qed.
Lemma code_row_length qs cs : length cs = length qs -> length (code_row qs cs) = length qs.
Proof. intros L. unfold code_row. rewrite map_length, combine_length. lia. Qed.
Lemma code_row_nth qs cs i : length cs = length qs -> (i < length qs)%nat -> nth i (code_row qs cs) 0%Z = qz (nth i cs 0) (nth i qs 0).
Proof. intros L I. unfold code_row. rewrite (nth_combine_map _ _ _ 0 0) by lia. reflexivity. Qed.
Definition value_row (qs : list R) (ks : list Z) : list R := map (fun '(k, q) => q * IZR k) (combine ks qs).
Lemma inv_quantize_ok cfg row : length row = length (quantization cfg) -> inv_quantize_row cfg row = Ok (value_row (quantization cfg) row).
Proof. intros L. unfold inv_quantize_row. now rewrite L, Nat.eqb_refl. Qed.
Lemma value_row_length qs ks : length ks = length qs -> length (value_row qs ks) = length qs.
Proof. intros L. unfold value_row. rewrite map_length, combine_length. lia. Qed.
Lemma value_row_nth qs ks i : length ks = length qs -> (i < length qs)%nat -> nth i (value_row qs ks) 0 = nth i qs 0 * IZR (nth i ks 0%Z).
Proof. intros L I. unfold value_row. rewrite (nth_combine_map _ _ _ 0%Z 0) by lia. reflexivity. Qed.
Lemma Forall_nth_R {A} (P : A -> Prop) l d i : Forall P l -> (i < length l)%nat -> P (nth i l d).
Proof. intros F I. rewrite Forall_forall in F. apply F. now apply nth_In. Qed.

(** ** Decoding *)
Lemma built_ext p c c' k : (forall i, (i < length (eigen_vectors p))%nat -> c i = c' i) -> built p c k = built p c' k.
Proof. intros H. unfold built. do 2 f_equal. apply total_ext. intros i I. now rewrite H. Qed.
Theorem decode_value : forall cfg c h w rest d, config_fits cfg c -> shape d = h :: w :: rest -> length (reference d) = c ->
  length (quantized_values d) = (ceil_div h (tile_sz cfg) * ceil_div w (tile_sz cfg))%nat ->
  Forall (fun r => length r = length (quantization cfg)) (quantized_values d) ->
  exists out, decode cfg d = Ok out /\ image out h w c /\
    forall y x ch, (y < h)%nat -> (x < w)%nat -> (ch < c)%nat ->
      pixel out w c y x ch = at_ (reference d) ch +
        decoded_vector cfg (nth (y / tile_sz cfg * ceil_div w (tile_sz cfg) + x / tile_sz cfg) (quantized_values d) []) (place (tile_sz cfg) c y x ch).
Proof.
  intros cfg c h w rest d (Hts & F & Lq & Q) Sh Lr Ln Wr. unfold decode.
  set (m := (tile_sz cfg * tile_sz cfg * c)%nat) in *.
  rewrite (mapM_ok _ (value_row (quantization cfg))).
  2: { intros r H. rewrite Forall_forall in Wr. apply inv_quantize_ok. now apply Wr. }
  cbn [bind]. rewrite (mapM_ok _ (fun v => tabulate m (built (pca cfg) (el v)))).
  2: { intros v H. apply in_map_iff in H. destruct H as (r & <- & H). rewrite Forall_forall in Wr. apply inverse_ok; [exact F|].
       rewrite value_row_length by now apply Wr. exact Lq. }
  cbn [bind]. rewrite Sh. pose proof F as (_ & Lm & _). rewrite Lm.
  destruct (combine_rows (reference d) (map (fun v => tabulate m (built (pca cfg) (el v))) (map (value_row (quantization cfg)) (quantized_values d)))
    h w c (tile_sz cfg) rest Hts Lr) as (out & E & I & C).
  { now rewrite !map_length. }
  { apply Forall_forall. intros r H. apply in_map_iff in H. destruct H as (v & <- & _). apply tabulate_length. }
  fold m in E. rewrite E. exists out. split; [reflexivity|]. split; [exact I|].
  intros y x ch Hy Hx Hc. rewrite C by assumption. rewrite Rplus_comm. f_equal.
  destruct (ceil_div_mul h (tile_sz cfg) Hts) as [Hh _]. destruct (ceil_div_mul w (tile_sz cfg) Hts) as [Hw _].
  pose proof (Nat.div_mod y (tile_sz cfg) ltac:(lia)). pose proof (Nat.mod_upper_bound y (tile_sz cfg) ltac:(lia)).
  pose proof (Nat.div_mod x (tile_sz cfg) ltac:(lia)). pose proof (Nat.mod_upper_bound x (tile_sz cfg) ltac:(lia)).
  assert (Hy' : (y / tile_sz cfg < ceil_div h (tile_sz cfg))%nat) by nia. assert (Hx' : (x / tile_sz cfg < ceil_div w (tile_sz cfg))%nat) by nia.
  assert (Pl : (place (tile_sz cfg) c y x ch < m)%nat).
  { unfold place, m. assert (y mod tile_sz cfg * tile_sz cfg + x mod tile_sz cfg + 1 <= tile_sz cfg * tile_sz cfg)%nat by nia. nia. }
  set (j := (y / tile_sz cfg * ceil_div w (tile_sz cfg) + x / tile_sz cfg)%nat).
  assert (J : (j < length (quantized_values d))%nat) by (rewrite Ln; unfold j; nia).
  rewrite map_map. set (g := fun r => tabulate m (built (pca cfg) (el (value_row (quantization cfg) r)))).
  rewrite (nth_indep _ [] (g [])) by (now rewrite map_length).
  rewrite map_nth. unfold g. rewrite el_tabulate by exact Pl. unfold decoded_vector. apply built_ext. intros i Hi.
  unfold el, at_. apply value_row_nth; [|now rewrite Lq]. now apply (Forall_nth_R (fun r => length r = length (quantization cfg))).
Qed.

(** ** Encoding *)
Lemma coefficient_ext p v v' i : (forall k, (k < length (mean p))%nat -> v k = v' k) -> coefficient p v i = coefficient p v' i.
Proof. intros H. unfold coefficient. apply total_ext. intros k K. unfold standard. now rewrite H. Qed.
Lemma encode_ok cfg t h w c : config_fits cfg c -> image t h w c -> pad_allowed h (tile_sz cfg) -> pad_allowed w (tile_sz cfg) ->
  exists tiles,
    codec_extract_tiles t (tile_sz cfg) = Ok (averages t h w c, tiles) /\
    length tiles = (ceil_div h (tile_sz cfg) * ceil_div w (tile_sz cfg))%nat /\
    Forall (fun r => length r = (tile_sz cfg * tile_sz cfg * c)%nat) tiles /\
    (forall ty tx, (ty < ceil_div h (tile_sz cfg))%nat -> (tx < ceil_div w (tile_sz cfg))%nat ->
      tile_vector t h w c (tile_sz cfg) (ty * tile_sz cfg) (tx * tile_sz cfg) (el (nth (ty * ceil_div w (tile_sz cfg) + tx) tiles []))) /\
    encode cfg t = Ok {| reference := averages t h w c;
      quantized_values := map (fun r => code_row (quantization cfg) (tabulate (length (eigen_vectors (pca cfg))) (coefficient (pca cfg) (el r)))) tiles;
      shape := [h; w; c] |}.
Proof.
  intros (Hts & F & Lq & Q) I Ph Pw. destruct (extract_rows t h w c (tile_sz cfg) I Hts Ph Pw) as (tiles & E & L & W & C).
  exists tiles. split; [exact E|]. split; [exact L|]. split; [exact W|]. split; [exact C|]. unfold encode. rewrite E. cbn [bind].
  rewrite (mapM_ok _ (fun r => tabulate (length (eigen_vectors (pca cfg))) (coefficient (pca cfg) (el r)))).
  2: { intros r H. rewrite Forall_forall in W. apply (transform_ok _ (tile_sz cfg * tile_sz cfg * c)); [exact F|now apply W]. }
  cbn [bind]. rewrite (mapM_ok _ (code_row (quantization cfg))).
  2: { intros r H. apply in_map_iff in H. destruct H as (v & <- & _). apply quantize_row_ok; [exact Q|]. now rewrite tabulate_length. }
  cbn [bind]. rewrite map_map. now rewrite (proj1 I).
Qed.
(** The vector of a tile is determined on all its places. *)
Lemma mirrored_exists n i ts : (0 < n)%nat -> (0 < ts)%nat -> pad_allowed n ts -> (i < ceil_div n ts * ts)%nat -> exists m, mirrored n i m.
Proof.
  intros N T P I. unfold pad_allowed in P. destruct (Nat.lt_ge_cases i n) as [H|H]; [exists i; left; auto|].
  exists (2 * (n - 1) - i)%nat. right. lia.
Qed.
Lemma place_split ts c k : (k < ts * ts * c)%nat -> exists y x ch, (y < ts)%nat /\ (x < ts)%nat /\ (ch < c)%nat /\ k = ((y * ts + x) * c + ch)%nat.
Proof.
  intros K. assert (C : (0 < c)%nat) by (destruct c; lia). assert (T : (0 < ts)%nat) by (destruct ts; lia).
  exists (k / c / ts)%nat, (k / c mod ts)%nat, (k mod c)%nat.
  assert (D : (k / c < ts * ts)%nat) by (apply Nat.div_lt_upper_bound; lia).
  split; [apply Nat.div_lt_upper_bound; lia|]. split; [apply Nat.mod_upper_bound; lia|]. split; [apply Nat.mod_upper_bound; lia|].
  rewrite (Nat.mul_comm (k / c / ts) ts), <- Nat.div_mod by lia. rewrite (Nat.mul_comm (k / c) c). apply Nat.div_mod. lia.
Qed.
Lemma tile_vector_unique t h w c ts ty tx v v' : (0 < h)%nat -> (0 < w)%nat -> (0 < ts)%nat -> pad_allowed h ts -> pad_allowed w ts ->
  (ty < ceil_div h ts)%nat -> (tx < ceil_div w ts)%nat ->
  tile_vector t h w c ts (ty * ts) (tx * ts) v -> tile_vector t h w c ts (ty * ts) (tx * ts) v' ->
  forall k, (k < ts * ts * c)%nat -> v k = v' k.
Proof.
  intros Hh Hw Hts Ph Pw Hty Htx V V' k K. destruct (place_split ts c k K) as (y & x & ch & Y & X & C & ->).
  destruct (mirrored_exists h (ty * ts + y) ts Hh Hts Ph ltac:(nia)) as (r & Mr).
  destruct (mirrored_exists w (tx * ts + x) ts Hw Hts Pw ltac:(nia)) as (q & Mq).
  now rewrite (V y x ch r q Y X C Mr Mq), (V' y x ch r q Y X C Mr Mq).
Qed.
Lemma tile_positive n ts t : (t < ceil_div n ts)%nat -> (0 < ts)%nat -> (0 < n)%nat.
Proof. intros H T. destruct n; [|lia]. unfold ceil_div in H. rewrite Nat.div_small in H; lia. Qed.

(** What the code says: averages, and for each tile and component the nearest step. *)
Theorem encode_value : forall cfg t h w c, config_fits cfg c -> image t h w c -> pad_allowed h (tile_sz cfg) -> pad_allowed w (tile_sz cfg) ->
  exists e, encode cfg t = Ok e /\ shape e = [h; w; c] /\ length (reference e) = c /\
    (forall ch, (ch < c)%nat -> at_ (reference e) ch = average t h w c ch) /\
    length (quantized_values e) = (ceil_div h (tile_sz cfg) * ceil_div w (tile_sz cfg))%nat /\
    Forall (fun r => length r = length (quantization cfg) /\ Forall int32 r) (quantized_values e) /\
    forall ty tx v i, (ty < ceil_div h (tile_sz cfg))%nat -> (tx < ceil_div w (tile_sz cfg))%nat -> (i < length (quantization cfg))%nat ->
      tile_vector t h w c (tile_sz cfg) (ty * tile_sz cfg) (tx * tile_sz cfg) v ->
      quantize (coefficient (pca cfg) v i) (at_ (quantization cfg) i) =
        Ok (nth i (nth (ty * ceil_div w (tile_sz cfg) + tx) (quantized_values e) []) 0%Z).
Proof.
  intros cfg t h w c G I Ph Pw. destruct (encode_ok cfg t h w c G I Ph Pw) as (tiles & _ & L & W & C & E).
  destruct G as (Hts & F & Lq & Q).
  eexists. split; [exact E|]. cbn [shape reference quantized_values]. split; [reflexivity|]. split; [apply tabulate_length|].
  split; [intros ch Hc; unfold averages; exact (el_tabulate _ _ _ Hc)|]. split; [now rewrite map_length|]. split.
  - apply Forall_forall. intros r H. apply in_map_iff in H. destruct H as (v & <- & _). split; [apply code_row_length; now rewrite tabulate_length|].
    apply Forall_forall. intros k K. unfold code_row in K. apply in_map_iff in K. destruct K as ((a & q) & <- & K). apply in_combine_r in K.
    rewrite Forall_forall in Q. specialize (Q q K). destruct (quantize_facts a q Q) as (k & E' & I' & _). rewrite quantize_qz in E' by exact Q.
    injection E' as <-. exact I'.
  - intros ty tx v i Hty Htx Hi V. rewrite Forall_forall in Q.
    assert (J : (ty * ceil_div w (tile_sz cfg) + tx < length tiles)%nat) by (rewrite L; nia).
    set (g := fun r => code_row (quantization cfg) (tabulate (length (eigen_vectors (pca cfg))) (coefficient (pca cfg) (el r)))).
    rewrite (nth_indep _ [] (g [])) by (now rewrite map_length). rewrite map_nth. unfold g.
    rewrite code_row_nth by (try rewrite tabulate_length; auto). rewrite nth_tabulate by (now rewrite <- Lq).
    rewrite quantize_qz by (apply Q; unfold at_; now apply nth_In). f_equal. unfold at_. f_equal. apply coefficient_ext.
    destruct F as (_ & Lm & _). rewrite Lm. intros k K.
    exact (tile_vector_unique t h w c (tile_sz cfg) ty tx v _ (tile_positive _ _ _ Hty Hts) (tile_positive _ _ _ Htx Hts) Hts Ph Pw Hty Htx V (C ty tx Hty Htx) k K).
Qed.

(** ** There and back *)
Theorem round_trip : forall cfg t h w c, config_fits cfg c -> image t h w c -> pad_allowed h (tile_sz cfg) -> pad_allowed w (tile_sz cfg) ->
  exists e out, encode cfg t = Ok e /\ decode cfg e = Ok out /\ image out h w c /\
    (unsaturated e -> forall y x ch v, (y < h)%nat -> (x < w)%nat -> (ch < c)%nat ->
      tile_vector t h w c (tile_sz cfg) (y / tile_sz cfg * tile_sz cfg) (x / tile_sz cfg * tile_sz cfg) v ->
      let k := place (tile_sz cfg) c y x ch in
      Rabs (pixel out w c y x ch - (average t h w c ch + built (pca cfg) (coefficient (pca cfg) v) k)) <= step_error cfg k) /\
    (unsaturated e -> spanning (pca cfg) -> forall y x ch, (y < h)%nat -> (x < w)%nat -> (ch < c)%nat ->
      Rabs (pixel out w c y x ch - pixel t w c y x ch) <= step_error cfg (place (tile_sz cfg) c y x ch)).
Proof.
  intros cfg t h w c G I Ph Pw. destruct (encode_value cfg t h w c G I Ph Pw) as (e & E & Sh & Lr & Av & Ln & Wr & V).
  assert (Wr' : Forall (fun r => length r = length (quantization cfg)) (quantized_values e)).
  { eapply Forall_impl; [|exact Wr]. intros r [H _]. exact H. }
  destruct (decode_value cfg c h w [c] e G Sh Lr Ln Wr') as (out & D & Io & P). exists e, out.
  split; [exact E|]. split; [exact D|]. split; [exact Io|].
  pose proof G as (Hts & F & Lq & Q).
  assert (K1 : unsaturated e -> forall y x ch v, (y < h)%nat -> (x < w)%nat -> (ch < c)%nat ->
      tile_vector t h w c (tile_sz cfg) (y / tile_sz cfg * tile_sz cfg) (x / tile_sz cfg * tile_sz cfg) v ->
      let k := place (tile_sz cfg) c y x ch in
      Rabs (pixel out w c y x ch - (average t h w c ch + built (pca cfg) (coefficient (pca cfg) v) k)) <= step_error cfg k).
  { intros U y x ch v Hy Hx Hc T k.
    destruct (ceil_div_mul h (tile_sz cfg) Hts) as [Hh _]. destruct (ceil_div_mul w (tile_sz cfg) Hts) as [Hw _].
    pose proof (Nat.div_mod y (tile_sz cfg) ltac:(lia)). pose proof (Nat.mod_upper_bound y (tile_sz cfg) ltac:(lia)).
    pose proof (Nat.div_mod x (tile_sz cfg) ltac:(lia)). pose proof (Nat.mod_upper_bound x (tile_sz cfg) ltac:(lia)).
    assert (Hy' : (y / tile_sz cfg < ceil_div h (tile_sz cfg))%nat) by nia. assert (Hx' : (x / tile_sz cfg < ceil_div w (tile_sz cfg))%nat) by nia.
    rewrite P by assumption. rewrite Av by assumption. fold k.
    set (j := (y / tile_sz cfg * ceil_div w (tile_sz cfg) + x / tile_sz cfg)%nat).
    assert (J : (j < length (quantized_values e))%nat) by (rewrite Ln; unfold j; nia).
    unfold decoded_vector. set (c1 := fun i => at_ (quantization cfg) i * IZR (nth i (nth j (quantized_values e) []) 0%Z)).
    replace (average t h w c ch + built (pca cfg) c1 k - (average t h w c ch + built (pca cfg) (coefficient (pca cfg) v) k))
      with (built (pca cfg) c1 k - built (pca cfg) (coefficient (pca cfg) v) k) by ring.
    apply built_close; [reflexivity|]. intros i Hi. unfold c1. rewrite <- Lq in Hi. specialize (V _ _ v i Hy' Hx' Hi T). fold j in V.
    assert (Qi : 0 < at_ (quantization cfg) i) by (unfold at_; now apply (Forall_nth_R (fun q => 0 < q))).
    apply (unsaturated_range _ _ _ Qi V). unfold unsaturated in U.
    pose proof (Forall_nth_R _ _ [] j U J) as Uj. apply (Forall_nth_R _ _ 0%Z i Uj).
    now rewrite (Forall_nth_R _ _ [] j Wr' J). }
  split; [exact K1|]. intros U Sp y x ch Hy Hx Hc.
  destruct (encode_ok cfg t h w c G I Ph Pw) as (tiles & _ & L & W & C & _).
  destruct (ceil_div_mul h (tile_sz cfg) Hts) as [Hh _]. destruct (ceil_div_mul w (tile_sz cfg) Hts) as [Hw _].
  pose proof (Nat.div_mod y (tile_sz cfg) ltac:(lia)) as Dy. pose proof (Nat.mod_upper_bound y (tile_sz cfg) ltac:(lia)) as My.
  pose proof (Nat.div_mod x (tile_sz cfg) ltac:(lia)) as Dx. pose proof (Nat.mod_upper_bound x (tile_sz cfg) ltac:(lia)) as Mx.
  assert (Hy' : (y / tile_sz cfg < ceil_div h (tile_sz cfg))%nat) by nia. assert (Hx' : (x / tile_sz cfg < ceil_div w (tile_sz cfg))%nat) by nia.
  pose proof (C _ _ Hy' Hx') as T. set (v := el (nth (y / tile_sz cfg * ceil_div w (tile_sz cfg) + x / tile_sz cfg) tiles [])) in *.
  pose proof (K1 U y x ch v Hy Hx Hc T) as B. cbv zeta in B.
  assert (Pl : (place (tile_sz cfg) c y x ch < tile_sz cfg * tile_sz cfg * c)%nat).
  { unfold place. assert (y mod tile_sz cfg * tile_sz cfg + x mod tile_sz cfg + 1 <= tile_sz cfg * tile_sz cfg)%nat by nia. nia. }
  rewrite (built_coefficient _ _ _ _ F Sp Pl) in B.
  assert (Vk : v (place (tile_sz cfg) c y x ch) = pixel t w c y x ch - average t h w c ch).
  { apply (T (y mod tile_sz cfg)%nat (x mod tile_sz cfg)%nat ch y x My Mx Hc); left; split; try assumption; rewrite Nat.mul_comm, <- Nat.div_mod by lia; auto. }
  rewrite Vk in B. replace (average t h w c ch + (pixel t w c y x ch - average t h w c ch)) with (pixel t w c y x ch) in B by ring. exact B.
Qed.

(** Codes of a tile survive decoding and encoding of the vector. *)
Theorem row_stable : forall cfg c ks, config_fits cfg c -> orthonormal (pca cfg) -> length ks = length (quantization cfg) -> Forall int32 ks ->
  exists vs row cs, inv_quantize_row cfg ks = Ok vs /\ inverse_transform (pca cfg) vs = Ok row /\
    transform (pca cfg) row = Ok cs /\ quantize_row cfg cs = Ok ks.
Proof.
  intros cfg c ks (Hts & F & Lq & Q) O L I. pose proof F as (_ & Lm & _). set (m := (tile_sz cfg * tile_sz cfg * c)%nat) in *.
  exists (value_row (quantization cfg) ks). eexists. eexists. split; [now apply inv_quantize_ok|].
  split; [apply (inverse_ok _ m); [exact F|rewrite value_row_length by exact L; exact Lq]|].
  split; [apply (transform_ok _ m); [exact F|apply tabulate_length]|].
  assert (E : tabulate (length (eigen_vectors (pca cfg))) (coefficient (pca cfg) (el (tabulate m (built (pca cfg) (el (value_row (quantization cfg) ks)))))) =
              value_row (quantization cfg) ks).
  { apply (nth_ext _ _ 0 0); [rewrite tabulate_length, value_row_length by exact L; symmetry; exact Lq|]. rewrite tabulate_length. intros i Hi.
    rewrite nth_tabulate by exact Hi. rewrite (coefficient_ext _ _ (built (pca cfg) (el (value_row (quantization cfg) ks)))).
    - rewrite (coefficient_built _ m) by assumption. reflexivity.
    - intros k K. rewrite Lm in K. now apply el_tabulate. }
  rewrite E. rewrite quantize_row_ok by (try exact Q; now apply value_row_length). f_equal.
  apply (nth_ext _ _ 0%Z 0%Z); [rewrite code_row_length by (now apply value_row_length); now symmetry|].
  rewrite code_row_length by (now apply value_row_length). intros i Hi. rewrite code_row_nth by (try exact Hi; now apply value_row_length).
  rewrite value_row_nth by assumption. 
  assert (Qi : 0 < nth i (quantization cfg) 0) by (now apply (Forall_nth_R (fun q => 0 < q))).
  assert (Ii : int32 (nth i ks 0%Z)) by (apply (Forall_nth_R int32); [exact I|lia]).
  pose proof (requantize _ _ Qi Ii) as H. rewrite quantize_qz in H by exact Qi. now injection H.
Qed.

(** ** Adding a constant *)
Lemma average_shifted t t' h w c by_ ch : (0 < h)%nat -> (0 < w)%nat -> (ch < c)%nat -> shifted t t' h w c by_ ->
  average t' h w c ch = average t h w c ch + by_ ch.
Proof.
  intros Hh Hw Hc Sf. unfold average. assert (N : INR (h * w) <> 0) by (apply not_0_INR; nia).
  rewrite (total_ext _ _ (fun p => nth (p * c + ch) (telems t) 0 + by_ ch)).
  - rewrite total_plus. assert (K : total (h * w) (fun _ => by_ ch) = INR (h * w) * by_ ch).
    { generalize (h * w)%nat. induction n as [|n IH]; [cbn; ring|]. cbn [total]. rewrite IH, S_INR. ring. }
    rewrite K. field. exact N.
  - intros p Hp. pose proof (Nat.div_mod p w ltac:(lia)) as D. pose proof (Nat.mod_upper_bound p w ltac:(lia)) as M.
    assert (Y : (p / w < h)%nat) by (apply Nat.div_lt_upper_bound; lia).
    pose proof (Sf (p / w)%nat (p mod w)%nat ch Y M Hc) as H. unfold pixel in H. rewrite (Nat.mul_comm (p / w) w), <- D in H. exact H.
Qed.
Theorem shift_invariant : forall cfg t t' h w c by_ e, image t h w c -> image t' h w c -> (0 < h)%nat -> (0 < w)%nat ->
  shifted t t' h w c by_ -> encode cfg t = Ok e ->
  exists e', encode cfg t' = Ok e' /\ quantized_values e' = quantized_values e /\ shape e' = shape e /\
    length (reference e') = length (reference e) /\ forall ch, (ch < c)%nat -> at_ (reference e') ch = at_ (reference e) ch + by_ ch.
Proof.
  intros cfg t t' h w c by_ e (Sh & L) (Sh' & L') Hh Hw Sf. unfold encode, codec_extract_tiles. rewrite Sh, Sh'. cbv zeta.
  assert (Er : forall t, tabulate c (channel_mean h w c (telems t)) = averages t h w c) by (intros; apply tabulate_ext; intros; apply channel_mean_average).
  rewrite !Er. fold (offsets_of t h w c) (offsets_of t' h w c).
  assert (Eo : offsets_of t' h w c = offsets_of t h w c).
  { apply tabulate_ext. intros k K. assert (C : (0 < c)%nat) by (destruct c; lia).
    pose proof (Nat.div_mod k c ltac:(lia)) as D. pose proof (Nat.mod_upper_bound k c ltac:(lia)) as M. set (ch := (k mod c)%nat) in *. set (p := (k / c)%nat) in *.
    assert (Hp : (p < h * w)%nat) by (apply Nat.div_lt_upper_bound; lia).
    pose proof (Nat.div_mod p w ltac:(lia)) as D'. pose proof (Nat.mod_upper_bound p w ltac:(lia)) as M'.
    assert (Y : (p / w < h)%nat) by (apply Nat.div_lt_upper_bound; lia).
    unfold averages. rewrite !el_tabulate by exact M. rewrite (average_shifted t t' h w c by_ ch Hh Hw M Sf).
    pose proof (Sf (p / w)%nat (p mod w)%nat ch Y M' M) as H. unfold pixel in H. rewrite (Nat.mul_comm (p / w) w), <- D' in H.
    replace (p * c + ch)%nat with k in H by lia. unfold el. rewrite H. ring. }
  rewrite Eo. destruct (extract_tiles 0 {| tshape := [h; w; c]; telems := offsets_of t h w c |} (tile_sz cfg)) as [tiles|er]; cbn [bind]; [|discriminate].
  destruct (tshape tiles) as [|n [|m [|? ?]]]; cbn [bind]; try discriminate.
  destruct (mapM (transform (pca cfg)) (rows n m (telems tiles))) as [vs|er]; cbn [bind]; [|discriminate].
  destruct (mapM (quantize_row cfg) vs) as [qs|er]; cbn [bind]; [|discriminate]. intros [= <-].
  eexists. split; [reflexivity|]. cbn [quantized_values shape reference]. split; [reflexivity|]. split; [reflexivity|].
  split; [unfold averages; now rewrite !tabulate_length|]. intros ch Hc. unfold averages.
  transitivity (average t' h w c ch); [exact (el_tabulate _ _ _ Hc)|]. rewrite (average_shifted t t' h w c by_ ch Hh Hw Hc Sf).
  f_equal. symmetry. exact (el_tabulate _ _ _ Hc).
Qed.
