(** Buckets, repeated coding, and the ray components. *)
From Coq Require Import Reals Lra Lia Psatz.
From Verif Require Import Base ResultLib ListLib GeomModel GeomBase FrameModel LidModel LidReturn NdArray NdArrayProofs TilingModel TilingSpec TilingProofs
  PcaModel PcaSpec PcaLinear PcaTiles PcaCodec.
Open Scope R_scope.

(** ** bucketed_quantization *)
Lemma max_abs_ge l x : In x l -> Rabs x <= max_abs l.
Proof.
  induction l as [|a l IH]; intros H; [destruct H|]. cbn [max_abs fold_right]. fold (max_abs l). destruct H as [->|H].
  - apply Rmax_l.
  - eapply Rle_trans; [now apply IH|apply Rmax_r].
Qed.
Lemma max_abs_nonneg l : 0 <= max_abs l.
Proof. destruct l as [|a l]; [cbn; lra|]. eapply Rle_trans; [apply Rabs_pos|]. apply (max_abs_ge (a :: l) a). now left. Qed.
Lemma max_abs_in l : l <> [] -> exists x, In x l /\ max_abs l = Rabs x.
Proof.
  induction l as [|a l IH]; [easy|]. intros _. cbn [max_abs fold_right]. fold (max_abs l). destruct l as [|b l].
  - exists a. split; [now left|]. cbn. apply Rmax_left, Rabs_pos.
  - destruct IH as (x & I & E); [discriminate|]. destruct (Rle_dec (Rabs a) (max_abs (b :: l))) as [H|H].
    + exists x. split; [now right|]. now rewrite Rmax_right.
    + exists a. split; [now left|]. rewrite Rmax_left by lra. reflexivity.
Qed.
Theorem buckets : forall data ns, data <> [] -> Forall (fun row => (length ns <= length row)%nat) data -> Forall (fun n => (0 < n)%nat) ns ->
  exists qs, bucketed_quantization data ns = Ok qs /\ length qs = length ns /\
    forall i, (i < length ns)%nat ->
      (forall row, In row data -> Rabs (at_ row i) <= INR (nth i ns 0%nat) * at_ qs i) /\
      (exists row, In row data /\ Rabs (at_ row i) = INR (nth i ns 0%nat) * at_ qs i) /\
      (forall row k, In row data -> (INR (nth i ns 0%nat) <= IZR (2 ^ 31 - 1)) -> quantize (at_ row i) (at_ qs i) = Ok k ->
         (Z.abs k <= Z.of_nat (nth i ns 0%nat))%Z) /\
      (at_ qs i = 0 <-> forall row, In row data -> at_ row i = 0).
Proof.
  intros data ns Dn Wd Np. set (col := fun i => map (fun row => at_ row i) data).
  assert (Ec : forall i, (i < length ns)%nat -> mapM (fun row => match nth_error row i with Some x => Ok x | None => Err IndexError end) data = Ok (col i)).
  { intros i Hi. apply mapM_ok. intros row H. rewrite Forall_forall in Wd. specialize (Wd row H).
    destruct (nth_error row i) as [x|] eqn:E; [|apply nth_error_None in E; lia]. f_equal. unfold at_. symmetry. now apply nth_error_nth. }
  exists (map (fun '(i, n) => max_abs (col i) / INR n) (combine (seq 0 (length ns)) ns)). split; [|split].
  - unfold bucketed_quantization. destruct data as [|r0 rs]; [easy|]. apply mapM_ok. intros [i n] H.
    pose proof (in_combine_l _ _ _ _ H) as H1. pose proof (in_combine_r _ _ _ _ H) as H2. apply in_seq in H1.
    rewrite Forall_forall in Np. specialize (Np n H2). rewrite (proj2 (Nat.eqb_neq n 0)) by lia. rewrite Ec by lia. reflexivity.
  - rewrite map_length, combine_length, seq_length. lia.
  - intros i Hi. set (n := nth i ns 0%nat). assert (Pn : (0 < n)%nat) by (rewrite Forall_forall in Np; apply Np; now apply nth_In).
    assert (Pr : 0 < INR n) by (now apply lt_0_INR).
    assert (Eq : at_ (map (fun '(i, n) => max_abs (col i) / INR n) (combine (seq 0 (length ns)) ns)) i = max_abs (col i) / INR n).
    { unfold at_. rewrite (nth_combine_map _ _ _ 0%nat 0%nat) by (rewrite seq_length; auto). rewrite seq_nth by exact Hi. reflexivity. }
    rewrite Eq. replace (INR n * (max_abs (col i) / INR n)) with (max_abs (col i)) by (field; lra).
    assert (Ge : forall row, In row data -> Rabs (at_ row i) <= max_abs (col i)).
    { intros row H. apply max_abs_ge. unfold col. apply in_map_iff. now exists row. }
    split; [exact Ge|]. split.
    { destruct (max_abs_in (col i)) as (x & I & E). { unfold col. destruct data; [easy|discriminate]. }
      unfold col in I. apply in_map_iff in I. destruct I as (row & <- & I). exists row. split; [exact I|now symmetry]. }
    split.
    { intros row k I B E. pose proof (Ge row I) as G. pose proof (max_abs_nonneg (col i)) as M.
      destruct (Req_EM_T (max_abs (col i) / INR n) 0) as [Z|Z].
      { rewrite Z in E. rewrite (proj1 (bad_step _)) in E. discriminate. }
      assert (Q : 0 < max_abs (col i) / INR n).
      { destruct (Rle_lt_or_eq_dec 0 (max_abs (col i)) M) as [H|H]; [now apply Rdiv_lt_0_compat|]. elim Z. rewrite <- H. unfold Rdiv. ring. }
      set (q := max_abs (col i) / INR n) in *. assert (Mq : max_abs (col i) = INR n * q) by (unfold q; field; lra). rewrite Mq in G.
      rewrite quantize_qz in E by exact Q. injection E as <-. unfold qz. apply Z.abs_le. 
      assert (Lo : IZR int_min <= - INR n). { unfold int_min. rewrite opp_IZR. assert (IZR (2 ^ 31 - 1) < IZR (2 ^ 31)) by (apply IZR_lt; reflexivity). lra. }
      fold int_max in B.
      apply round_even_mono_int. rewrite opp_IZR, <- INR_IZR_INZ. apply div_between; [exact Q|]. revert G. unfold Rabs, clip_by_value, Rmax, Rmin.
      assert (IZR int_min * q <= - (INR n * q)) by nra. assert (INR n * q <= IZR int_max * q) by nra. assert (0 <= INR n * q) by nra.
      repeat (destruct (Rle_dec _ _)); destruct (Rcase_abs _); lra. }
    split.
    + intros Z row I. assert (M : max_abs (col i) = 0) by (replace (max_abs (col i)) with (max_abs (col i) / INR n * INR n) by (field; lra); rewrite Z; ring).
      specialize (Ge row I). rewrite M in Ge. destruct (Req_EM_T (at_ row i) 0) as [E|E]; [exact E|]. apply Rabs_pos_lt in E. lra.
    + intros H. destruct (max_abs_in (col i)) as (x & I & E). { unfold col. destruct data; [easy|discriminate]. }
      unfold col in I. apply in_map_iff in I. destruct I as (row & <- & I). rewrite E, (H row I), Rabs_R0. unfold Rdiv. ring.
Qed.

(** ** Coding again and again *)
Definition drift_config : codec_config :=
  {| pca := {| mean := [3 / 10]; std := [1]; eigen_vectors := [[1]] |}; quantization := [1]; tile_sz := 1 |}.
Definition dot_image (a : R) : tensor R := {| tshape := [1; 1; 1]%nat; telems := [a] |}.
Lemma drift_fits : config_fits drift_config 1.
Proof.
  unfold config_fits, fits, drift_config. cbn [tile_sz pca mean std eigen_vectors quantization length].
  split; [lia|]. split; [|split; [reflexivity|repeat constructor; lra]].
  split; [lia|]. split; [reflexivity|]. split; [reflexivity|]. split.
  - intros e [<-|[]]. reflexivity.
  - intros k K. cbn in K. destruct k; [|lia]. cbn. lra.
Qed.
Lemma drift_orthonormal : orthonormal (pca drift_config) /\ spanning (pca drift_config).
Proof.
  unfold orthonormal, spanning, drift_config. cbn [pca mean std eigen_vectors length].
  split; intros i j I J; (destruct i; [|lia]); (destruct j; [|lia]); unfold comp, same; cbn; ring.
Qed.
Lemma round_small x : Rabs x < / 2 -> round_even x = 0%Z.
Proof.
  intros H. apply (nearest_unique x); [apply round_even_nearest|]. split; rewrite Rminus_0_r; [lra|]. intros E. lra.
Qed.
Lemma drift_cycle a e : encode drift_config (dot_image a) = Ok e -> decode drift_config e = Ok (dot_image (a + 3 / 10)).
Proof.
  intros E. assert (P1 : pad_allowed 1 1) by (unfold pad_allowed; vm_compute; lia).
  assert (I1 : image (dot_image a) 1 1 1) by (split; reflexivity).
  destruct (encode_value drift_config (dot_image a) 1 1 1 drift_fits I1 P1 P1) as (e' & E' & Sh & Lr & Av & Ln & Wr & V).
  rewrite E in E'. injection E' as <-.
  assert (Wr' : Forall (fun r => length r = length (quantization drift_config)) (quantized_values e)).
  { eapply Forall_impl; [|exact Wr]. intros r [H _]. exact H. }
  destruct (decode_value drift_config 1 1 1 [1%nat] e drift_fits Sh Lr Ln Wr') as (out & D & Io & P).
  rewrite D. f_equal. destruct Io as [S1 S2]. destruct out as [so eo]. cbn [tshape telems] in *. unfold dot_image. rewrite S1.
  specialize (P 0%nat 0%nat 0%nat ltac:(lia) ltac:(lia) ltac:(lia)). unfold pixel in P. cbn [telems] in P.
  destruct eo as [|o [|? ?]]; cbn [length] in S2; try (cbn in S2; lia). cbn [nth Nat.mul Nat.add] in P. rewrite P. f_equal. f_equal.
  rewrite Av by lia. assert (Ea : average (dot_image a) 1 1 1 0 = a) by (unfold average, dot_image; cbn; field). rewrite Ea. f_equal.
  specialize (V 0%nat 0%nat (fun _ => 0) 0%nat ltac:(vm_compute; lia) ltac:(vm_compute; lia) ltac:(cbn; lia)).
  specialize (V ltac:(intros y x ch r q Hy Hx Hc Mr Mq; cbn in Hy, Hx; unfold mirrored in Mr, Mq; destruct y; [|lia]; destruct x; [|lia]; destruct ch; [|lia];
    replace r with 0%nat by (cbn in Mr; lia); replace q with 0%nat by (cbn in Mq; lia); rewrite Ea; unfold pixel, dot_image; cbn; ring)).
  assert (Ec : coefficient (pca drift_config) (fun _ => 0) 0 = - (3 / 10)) by (unfold coefficient, standard, comp, at_, drift_config; cbn; field).
  rewrite Ec in V. replace (at_ (quantization drift_config) 0) with 1 in V by reflexivity.
  rewrite quantize_qz in V by lra.
  assert (K : qz (- (3 / 10)) 1 = 0%Z).
  { unfold qz. replace (clip_by_value (- (3 / 10)) (IZR int_min * 1) (IZR int_max * 1) / 1) with (- (3 / 10)).
    - apply round_small. rewrite Rabs_Ropp, Rabs_right; lra.
    - assert (IZR int_min <= -1) by (apply IZR_le; vm_compute; discriminate). assert (1 <= IZR int_max) by (apply IZR_le; vm_compute; discriminate).
      unfold clip_by_value, Rmax, Rmin. repeat (destruct (Rle_dec _ _)); lra. }
  rewrite K in V. apply Ok_inj in V.
  replace (0 / tile_sz drift_config * ceil_div 1 (tile_sz drift_config) + 0 / tile_sz drift_config)%nat with (0 * ceil_div 1 (tile_sz drift_config) + 0)%nat by reflexivity.
  unfold decoded_vector, built, at_, place, drift_config. cbn [pca mean std eigen_vectors quantization tile_sz length total]. 
  unfold drift_config in V. cbn [tile_sz] in V. rewrite <- V. unfold comp. cbn. ring.
Qed.
Theorem repeated_coding_drifts_refuted : exists cfg, config_fits cfg 1 /\ orthonormal (pca cfg) /\ spanning (pca cfg) /\
  exists images : nat -> tensor R,
    (forall n, image (images n) 1 1 1) /\
    (forall n, exists e, encode cfg (images n) = Ok e /\ unsaturated e /\ decode cfg e = Ok (images (S n))) /\
    (forall n, pixel (images n) 1 1 0 0 0 - pixel (images O) 1 1 0 0 0 = INR n * (3 / 10)).
Proof.
  exists drift_config. split; [apply drift_fits|]. split; [apply drift_orthonormal|]. split; [apply drift_orthonormal|].
  exists (fun n => dot_image (INR n * (3 / 10))). split; [|split].
  - intros n. split; reflexivity.
  - intros n. assert (P1 : pad_allowed 1 1) by (unfold pad_allowed; vm_compute; lia).
    assert (I1 : image (dot_image (INR n * (3 / 10))) 1 1 1) by (split; reflexivity).
    destruct (encode_value drift_config _ 1 1 1 drift_fits I1 P1 P1) as (e & E & Sh & Lr & Av & Ln & Wr & V). exists e. split; [exact E|]. split.
    + unfold unsaturated. change (ceil_div 1 (tile_sz drift_config) * ceil_div 1 (tile_sz drift_config))%nat with 1%nat in Ln.
      assert (Ea : average (dot_image (INR n * (3 / 10))) 1 1 1 0 = INR n * (3 / 10)) by (unfold average, dot_image; cbn; field).
      specialize (V 0%nat 0%nat (fun _ => 0) 0%nat ltac:(vm_compute; lia) ltac:(vm_compute; lia) ltac:(cbn; lia)).
      specialize (V ltac:(intros y x ch r q Hy Hx Hc Mr Mq; cbn in Hy, Hx; unfold mirrored in Mr, Mq; destruct y; [|lia]; destruct x; [|lia]; destruct ch; [|lia];
        replace r with 0%nat by (cbn in Mr; lia); replace q with 0%nat by (cbn in Mq; lia); rewrite Ea; unfold pixel, dot_image; cbn; ring)).
      assert (Ec : coefficient (pca drift_config) (fun _ => 0) 0 = - (3 / 10)) by (unfold coefficient, standard, comp, at_, drift_config; cbn; field).
      rewrite Ec in V. replace (at_ (quantization drift_config) 0) with 1 in V by reflexivity.
      destruct (quantize_facts (- (3 / 10)) 1 ltac:(lra)) as (k & Ek & _ & Nk & _). rewrite Ek in V. apply Ok_inj in V.
      destruct (quantized_values e) as [|r [|? ?]]; cbn [length] in Ln; try lia. pose proof (Forall_inv Wr) as [W _]. cbn in W.
      destruct r as [|k' [|? ?]]; cbn [length] in W; try lia. cbn in V. repeat constructor. rewrite <- V.
      destruct Nk as [[Nk _] _].
      { assert (IZR (- 2 ^ 31) <= -1) by (apply IZR_le; vm_compute; discriminate). assert (1 <= IZR (2 ^ 31 - 1)) by (apply IZR_le; vm_compute; discriminate). lra. }
      intros [H|H]; rewrite H in Nk.
      * assert (IZR (- 2 ^ 31) <= -1) by (apply IZR_le; vm_compute; discriminate). revert Nk. unfold Rabs. destruct (Rcase_abs _); lra.
      * assert (1 <= IZR (2 ^ 31 - 1)) by (apply IZR_le; vm_compute; discriminate). revert Nk. unfold Rabs. destruct (Rcase_abs _); lra.
    + rewrite (drift_cycle _ _ E). do 2 f_equal. rewrite S_INR. ring.
  - intros n. unfold pixel, dot_image. cbn. ring.
Qed.

(** ** Components *)
Lemma concat_ok a b h w : image a h w 3 -> image b h w 3 ->
  exists t, concat_last a b = Ok t /\ image t h w 6 /\
    forall y x ch, (y < h)%nat -> (x < w)%nat -> (ch < 3)%nat ->
      pixel t w 6 y x ch = pixel a w 3 y x ch /\ pixel t w 6 y x (3 + ch) = pixel b w 3 y x ch.
Proof.
  intros [Sa La] [Sb Lb]. unfold concat_last. rewrite Sa, Sb, !Nat.eqb_refl. cbn [andb]. eexists. split; [reflexivity|]. split.
  - split; cbn [tshape telems]; [reflexivity|]. apply tabulate_length.
  - intros y x ch Hy Hx Hc. unfold pixel. cbn [telems]. cbv zeta. change (3 + 3)%nat with 6%nat.
    assert (D : forall o, (o < 6)%nat -> (((y * w + x) * 6 + o) / 6 = y * w + x /\ ((y * w + x) * 6 + o) mod 6 = o)%nat).
    { intros o Ho. split; [rewrite Nat.div_add_l, (Nat.div_small o) by lia; lia|]. rewrite Nat.add_comm, Nat.mod_add, Nat.mod_small by lia. reflexivity. }
    split.
    + rewrite nth_tabulate by (apply index_lt; auto; lia). destruct (D ch ltac:(lia)) as [-> ->]. rewrite (proj2 (Nat.ltb_lt ch 3)) by lia. reflexivity.
    + rewrite nth_tabulate by (apply index_lt; auto; lia). destruct (D (3 + ch)%nat ltac:(lia)) as [-> ->]. rewrite (proj2 (Nat.ltb_ge (3 + ch) 3)) by lia.
      unfold el. f_equal. lia.
Qed.
Lemma split_ok t h w : image t h w 6 -> exists a b, split_33 t = Ok (a, b) /\ image a h w 3 /\ image b h w 3 /\
  forall y x ch, (y < h)%nat -> (x < w)%nat -> (ch < 3)%nat ->
    pixel a w 3 y x ch = pixel t w 6 y x ch /\ pixel b w 3 y x ch = pixel t w 6 y x (3 + ch).
Proof.
  intros [St Lt]. unfold split_33. rewrite St. cbv zeta. eexists. eexists. split; [reflexivity|].
  split; [split; cbn [tshape telems]; [reflexivity|apply tabulate_length]|]. split; [split; cbn [tshape telems]; [reflexivity|apply tabulate_length]|].
  intros y x ch Hy Hx Hc. unfold pixel. cbn [telems].
  assert (D : (((y * w + x) * 3 + ch) / 3 = y * w + x /\ ((y * w + x) * 3 + ch) mod 3 = ch)%nat).
  { split; [rewrite Nat.div_add_l, (Nat.div_small ch) by lia; lia|]. rewrite Nat.add_comm, Nat.mod_add, Nat.mod_small by lia. reflexivity. }
  destruct D as [D1 D2].
  split; rewrite nth_tabulate by (now apply index_lt); rewrite D1, D2; unfold el; f_equal; lia.
Qed.
Theorem asset_round_trip : forall K cfg (src : ray_component K) o d h w, config_fits cfg 6 ->
  ray_origin src = Some o -> ray_direction src = Some d -> image o h w 3 -> image d h w 3 ->
  pad_allowed h (tile_sz cfg) -> pad_allowed w (tile_sz cfg) ->
  exists z out o' d', asset_encode cfg src = Ok z /\ asset_decode cfg z = Ok out /\
    comp_key z = ray_key src /\ comp_shape z = [h; w; 6%nat] /\ length (comp_reference z) = 6%nat /\
    length (comp_values z) = (ceil_div h (tile_sz cfg) * ceil_div w (tile_sz cfg) * length (quantization cfg))%nat /\
    ray_key out = ray_key src /\ ray_origin out = Some o' /\ ray_direction out = Some d' /\ image o' h w 3 /\ image d' h w 3 /\
    (Forall (fun k => ~ saturated k) (comp_values z) -> spanning (pca cfg) ->
     forall y x ch, (y < h)%nat -> (x < w)%nat -> (ch < 3)%nat ->
       Rabs (pixel o' w 3 y x ch - pixel o w 3 y x ch) <= step_error cfg (place (tile_sz cfg) 6 y x ch) /\
       Rabs (pixel d' w 3 y x ch - pixel d w 3 y x ch) <= step_error cfg (place (tile_sz cfg) 6 y x (3 + ch))).
Proof.
  intros K cfg src o d h w G Eo Ed Io Id Ph Pw. destruct (concat_ok o d h w Io Id) as (t & Et & It & Pt).
  destruct (round_trip cfg t h w 6 G It Ph Pw) as (e & out & E & D & Iout & _ & B).
  destruct (encode_value cfg t h w 6 G It Ph Pw) as (e' & E' & Sh & Lr & _ & Ln & Wr & _). rewrite E in E'. injection E' as <-.
  assert (Wr' : Forall (fun r => length r = length (quantization cfg)) (quantized_values e)).
  { eapply Forall_impl; [|exact Wr]. intros r [H _]. exact H. }
  destruct (split_ok out h w Iout) as (o' & d' & Es & Io' & Id' & Ps).
  assert (Qp : (0 < length (quantization cfg))%nat) by (destruct G as (_ & (A & _) & L & _); lia).
  exists {| comp_key := ray_key src; comp_reference := reference e; comp_values := concat (quantized_values e); comp_shape := shape e |}.
  exists {| ray_key := ray_key src; ray_origin := Some o'; ray_direction := Some d' |}, o', d'.
  pose proof (concat_width _ _ Wr') as Lc.
  split; [unfold asset_encode; rewrite Eo, Ed, Et; cbn [bind]; rewrite E; reflexivity|].
  cbn [comp_key comp_shape comp_reference comp_values ray_key ray_origin ray_direction].
  split.
  { unfold asset_decode. cbn [comp_key comp_shape comp_reference comp_values]. rewrite (proj2 (Nat.eqb_neq _ 0)) by lia. rewrite Lc.
    rewrite Nat.mod_mul by lia. cbn [Nat.eqb negb]. rewrite Nat.div_mul by lia. rewrite rows_concat by exact Wr'.
    assert (Ee : {| reference := reference e; quantized_values := quantized_values e; shape := shape e |} = e) by (now destruct e). rewrite Ee, D. cbn [bind].
    rewrite Es. reflexivity. }
  split; [reflexivity|]. split; [exact Sh|]. split; [exact Lr|]. split; [now rewrite Lc, Ln|].
  split; [reflexivity|]. split; [reflexivity|]. split; [reflexivity|]. split; [exact Io'|]. split; [exact Id'|].
  intros U Sp y x ch Hy Hx Hc.
  assert (U' : unsaturated e).
  { unfold unsaturated. apply Forall_forall. intros r R. apply Forall_forall. intros k Kk. rewrite Forall_forall in U. apply U. apply in_concat. now exists r. }
  destruct (Ps y x ch Hy Hx Hc) as [-> ->]. destruct (Pt y x ch Hy Hx Hc) as [<- <-].
  split; apply B; auto; lia.
Qed.
Theorem asset_errors : forall K cfg (src : ray_component K) (z : compressed_component K),
  (ray_origin src = None \/ ray_direction src = None -> asset_encode cfg src = Err AssertionError) /\
  ((length (comp_values z) mod length (quantization cfg) <> 0)%nat -> (0 < length (quantization cfg))%nat -> asset_decode cfg z = Err ValueError).
Proof.
  intros K cfg src z. split.
  - unfold asset_encode. intros [-> | ->]; [reflexivity|]. now destruct (ray_origin src).
  - intros M P. unfold asset_decode. rewrite (proj2 (Nat.eqb_neq _ 0)) by lia. rewrite (proj2 (Nat.eqb_neq _ 0)) by exact M. reflexivity.
Qed.

(** A configuration that keeps the values as they are. *)
Definition plain_config (c : nat) (q : R) : codec_config :=
  {| pca := {| mean := repeat 0 c; std := repeat 1 c; eigen_vectors := tabulate c (fun i => tabulate c (fun k => same i k)) |};
     quantization := repeat q c; tile_sz := 1 |}.
Lemma plain_comp c q i k : (i < c)%nat -> (k < c)%nat -> comp (pca (plain_config c q)) i k = same i k.
Proof. intros I K. unfold comp, plain_config. cbn [pca eigen_vectors]. rewrite nth_tabulate by exact I. now rewrite nth_tabulate. Qed.
Theorem plain_config_ok : forall c q, (0 < c)%nat -> 0 < q -> config_fits (plain_config c q) c /\ orthonormal (pca (plain_config c q)) /\ spanning (pca (plain_config c q)).
Proof.
  intros c q C Q. split; [|split].
  - unfold config_fits, fits. cbn [plain_config tile_sz pca mean std eigen_vectors quantization]. rewrite !repeat_length, !tabulate_length.
    split; [lia|]. split; [|split; [reflexivity|apply Forall_forall; intros x H; apply repeat_spec in H; subst; exact Q]].
    split; [exact C|]. split; [lia|]. split; [lia|]. split.
    + intros e H. apply in_map_iff in H. destruct H as (i & <- & _). unfold tabulate. rewrite map_length, seq_length. lia.
    + intros k K. unfold at_. rewrite nth_indep with (d' := 1) by (rewrite repeat_length; lia). rewrite nth_repeat. lra.
  - intros i j. cbn [plain_config pca mean std eigen_vectors]. rewrite repeat_length, tabulate_length. intros I J.
    rewrite (total_ext _ _ (fun k => same k i * same j k)).
    + rewrite total_same by exact I. apply same_sym.
    + intros k K. rewrite !(plain_comp c q) by assumption. now rewrite (same_sym i k).
  - intros i j. cbn [plain_config pca mean std eigen_vectors]. rewrite repeat_length, tabulate_length. intros I J.
    rewrite (total_ext _ _ (fun k => same k i * same k j)).
    + now rewrite total_same by exact I.
    + intros k K. now rewrite !(plain_comp c q) by assumption.
Qed.
Theorem zero_component_refuted : exists data ns qs, data <> [] /\ Forall (fun n => (0 < n)%nat) ns /\ bucketed_quantization data ns = Ok qs /\
  exists i row, In row data /\ (i < length ns)%nat /\ quantize (at_ row i) (at_ qs i) = Err RuntimeError.
Proof.
  destruct (buckets [[1; 0]; [2; 0]] [4; 4]%nat) as (qs & E & L & H); [discriminate|repeat constructor|repeat constructor|].
  exists [[1; 0]; [2; 0]], [4; 4]%nat, qs. split; [discriminate|]. split; [repeat constructor|]. split; [exact E|].
  exists 1%nat, [1; 0]. split; [now left|]. split; [cbn; lia|]. destruct (H 1%nat ltac:(cbn; lia)) as (_ & _ & _ & [_ Z]). rewrite Z; [apply bad_step|].
  intros row [<-|[<-|[]]]; reflexivity.
Qed.
Theorem buckets_case : exists qs, bucketed_quantization [[1; -4]; [2; 3]] [2; 4]%nat = Ok qs /\ at_ qs 0 <> 0 /\ int32 7.
Proof.
  destruct (buckets [[1; -4]; [2; 3]] [2; 4]%nat) as (qs & E & L & H); [discriminate|repeat constructor|repeat constructor|].
  exists qs. split; [exact E|]. split; [|unfold int32; lia]. destruct (H 0%nat ltac:(cbn; lia)) as (_ & _ & _ & [Z _]). intros Q.
  specialize (Z Q [1; -4] ltac:(now left)). unfold at_ in Z. cbn in Z. lra.
Qed.
