(** The tiles of an image as rows. *)
From Coq Require Import Reals Lra Lia Psatz.
From Verif Require Import Base ResultLib ListLib GeomModel GeomBase FrameModel NdArray NdArrayProofs TilingModel TilingSpec TilingProofs PcaModel PcaSpec PcaLinear.

Lemma combine_content {A} (d : A) (t : tensor A) n h w c ts :
  tshape t = [n; (ts * ts * c)%nat] -> length (telems t) = (ceil_div h ts * ceil_div w ts * (ts * ts * c))%nat -> (0 < ts)%nat ->
  exists out, combine_tiles d t h w ts = Ok out /\ tshape out = [h; w; c] /\ length (telems out) = (h * w * c)%nat /\
    forall y x ch, (y < h)%nat -> (x < w)%nat -> (ch < c)%nat ->
      nth ((y * w + x) * c + ch) (telems out) d =
      nth ((y / ts * ceil_div w ts + x / ts) * (ts * ts * c) + place ts c y x ch) (telems t) d.
Proof.
  intros Hs Hl Hts. unfold combine_tiles. replace (ts =? 0)%nat with false by (symmetry; apply Nat.eqb_neq; lia).
  rewrite Hs. cbn [last].
  assert (Ec : (ts * ts * c / (ts * ts) = c)%nat) by (rewrite Nat.mul_comm; apply Nat.div_mul; nia).
  rewrite Ec, Nat.eqb_refl. cbn [negb].
  unfold padded_height, padded_width, num_tiles_y, num_tiles_x. cbn [orig_height orig_width tile_size dims].
  destruct (ceil_div_mul h ts Hts) as [Hh1 Hh2]. destruct (ceil_div_mul w ts Hts) as [Hw1 Hw2].
  set (ny := ceil_div h ts) in *. set (nx := ceil_div w ts) in *.
  rewrite reshape_ok by (rewrite Hl; unfold prodl; cbn [fold_right]; ring). cbn [bind].
  assert (E1 : prodl (permute [0; 2; 1; 3; 4] [ny; nx; ts; ts; c])%nat = prodl [ny * ts; nx * ts; c]%nat) by (unfold prodl; simpl; lia).
  unfold transpose_t. cbn [telems tshape].
  rewrite reshape_ok by (cbn [telems]; rewrite transpose_length; exact E1). cbn [bind]. unfold crop. cbn [tshape telems].
  rewrite (Nat.min_l h), (Nat.min_l w) by lia. eexists. split; [reflexivity|]. cbn [tshape telems].
  split; [reflexivity|]. split; [rewrite tabulate_length; unfold prodl; cbn [fold_right]; ring|].
  intros i j ch Hi Hj Hc.
  assert (Hv : valid_index [h; w; c] [i; j; ch]) by (unfold valid_index; repeat constructor; lia).
  replace ((i * w + j) * c + ch)%nat with (ravel [h; w; c] [i; j; ch]) by (simpl; lia).
  rewrite nth_tabulate by (now apply ravel_lt). rewrite unravel_ravel by exact Hv.
  pose proof (Nat.div_mod i ts ltac:(lia)) as Di. pose proof (Nat.mod_upper_bound i ts ltac:(lia)) as Mi.
  pose proof (Nat.div_mod j ts ltac:(lia)) as Dj. pose proof (Nat.mod_upper_bound j ts ltac:(lia)) as Mj. unfold place.
  set (ty := (i / ts)%nat) in *. set (y := (i mod ts)%nat) in *. set (tx := (j / ts)%nat) in *. set (xx := (j mod ts)%nat) in *.
  assert (Hty : (ty < ny)%nat) by nia. assert (Htx : (tx < nx)%nat) by nia.
  assert (Er : ravel [ny * ts; nx * ts; c]%nat [i; j; ch] = ravel [ny; ts; nx; ts; c] [ty; y; tx; xx; ch]).
  { rewrite Di, Dj. simpl. lia. }
  rewrite Er.
  assert (Hv5 : valid_index [ny; nx; ts; ts; c] [ty; tx; y; xx; ch]) by (unfold valid_index; repeat constructor; lia).
  change [ty; y; tx; xx; ch] with (permute [0; 2; 1; 3; 4]%nat [ty; tx; y; xx; ch]).
  change [ny; ts; nx; ts; c] with (permute [0; 2; 1; 3; 4]%nat [ny; nx; ts; ts; c]).
  rewrite (nth_transpose d 5 _ _ [0; 2; 1; 3; 4]%nat); [|exact perm_pair_02134|reflexivity|reflexivity|exact Hv5].
  f_equal. simpl. lia.
Qed.

Lemma index_lt h w c y x ch : (y < h)%nat -> (x < w)%nat -> (ch < c)%nat -> ((y * w + x) * c + ch < h * w * c)%nat.
Proof. intros. assert (y * w + x + 1 <= h * w)%nat by nia. nia. Qed.
(** ** Rows *)
Lemma nth_rows {A} (d : A) n m l i k : (i < n)%nat -> (k < m)%nat -> nth k (nth i (rows n m l) []) d = nth (i * m + k) l d.
Proof.
  intros I K. unfold rows. rewrite nth_tabulate by exact I.
  assert (F : forall (l : list A) m k, (k < m)%nat -> nth k (firstn m l) d = nth k l d).
  { clear. induction l as [|a l IH]; intros [|m] [|k] H; cbn; try lia; try reflexivity. apply IH. lia. }
  assert (G : forall (l : list A) s k, nth k (skipn s l) d = nth (s + k) l d).
  { clear. induction l as [|a l IH]; intros [|s] k; cbn; try reflexivity; [now destruct k|apply IH]. }
  now rewrite F, G by exact K.
Qed.
Lemma rows_length {A} n m (l : list A) : length (rows n m l) = n. Proof. apply tabulate_length. Qed.
Lemma rows_width {A} n m (l : list A) : length l = (n * m)%nat -> Forall (fun r => length r = m) (rows n m l).
Proof.
  intros L. apply Forall_forall. intros r H. unfold rows, tabulate in H. apply in_map_iff in H. destruct H as (i & <- & I). apply in_seq in I.
  rewrite firstn_length, skipn_length, L. apply Nat.min_l. nia.
Qed.
Lemma nth_concat {A} (d : A) m rs : Forall (fun r => length r = m) rs -> forall i k, (i < length rs)%nat -> (k < m)%nat ->
  nth (i * m + k) (concat rs) d = nth k (nth i rs []) d.
Proof.
  induction 1 as [|r rs H F IH]; intros i k I K; cbn [length] in I; [lia|]. cbn [concat]. destruct i as [|i].
  - cbn [nth]. rewrite app_nth1 by lia. f_equal.
  - rewrite app_nth2 by lia. replace (S i * m + k - length r)%nat with (i * m + k)%nat by lia. cbn [nth]. apply IH; lia.
Qed.
Lemma concat_width {A} m (rs : list (list A)) : Forall (fun r => length r = m) rs -> length (concat rs) = (length rs * m)%nat.
Proof. induction 1 as [|r rs H F IH]; cbn [concat length]; [reflexivity|]. rewrite app_length, IH, H. lia. Qed.
Lemma rows_concat {A} m (rs : list (list A)) : Forall (fun r => length r = m) rs -> rows (length rs) m (concat rs) = rs.
Proof.
  intros F. unfold rows. assert (H : forall i, (i < length rs)%nat -> firstn m (skipn (i * m) (concat rs)) = nth i rs []).
  { induction F as [|r rs E F IH]; intros i I; cbn [length] in I; [lia|]. cbn [concat]. destruct i as [|i].
    - cbn [Nat.mul skipn nth]. rewrite <- E, firstn_app, Nat.sub_diag, firstn_all, firstn_O. apply app_nil_r.
    - cbn [nth]. rewrite <- IH by lia. f_equal. cbn [Nat.mul]. rewrite skipn_app, skipn_all2 by lia.
      replace (m + i * m - length r)%nat with (i * m)%nat by lia. reflexivity. }
  rewrite (tabulate_ext _ _ (fun i => nth i rs [])) by (intros; now apply H). apply tabulate_nth.
Qed.

Open Scope R_scope.
(** ** Averages and offsets *)
Lemma channel_mean_average t h w c ch : channel_mean h w c (telems t) ch = average t h w c ch.
Proof. unfold channel_mean, average. now rewrite sumr_total. Qed.
Definition averages (t : tensor R) (h w c : nat) : list R := tabulate c (average t h w c).
Definition offsets_of (t : tensor R) (h w c : nat) : list R :=
  tabulate (h * w * c) (fun k => el (telems t) k - el (averages t h w c) (k mod c)).
Lemma offset_at t h w c y x ch : (y < h)%nat -> (x < w)%nat -> (ch < c)%nat ->
  el (offsets_of t h w c) ((y * w + x) * c + ch) = pixel t w c y x ch - average t h w c ch.
Proof.
  intros Hy Hx Hc. unfold offsets_of. rewrite el_tabulate by (now apply index_lt).
  replace (((y * w + x) * c + ch) mod c)%nat with ch by (rewrite Nat.add_comm, Nat.mod_add, Nat.mod_small; lia).
  unfold averages. now rewrite el_tabulate by exact Hc.
Qed.
Lemma mirrored_lt n i m : (0 < n)%nat -> mirrored n i m -> (m < n)%nat.
Proof. unfold mirrored. lia. Qed.

Lemma extract_rows t h w c ts : image t h w c -> (0 < ts)%nat -> pad_allowed h ts -> pad_allowed w ts ->
  exists tiles, codec_extract_tiles t ts = Ok (averages t h w c, tiles) /\
    length tiles = (ceil_div h ts * ceil_div w ts)%nat /\ Forall (fun r => length r = (ts * ts * c)%nat) tiles /\
    forall ty tx, (ty < ceil_div h ts)%nat -> (tx < ceil_div w ts)%nat ->
      tile_vector t h w c ts (ty * ts) (tx * ts) (el (nth (ty * ceil_div w ts + tx) tiles [])).
Proof.
  intros (Hs & Hl) Hts Ph Pw. unfold codec_extract_tiles. rewrite Hs. cbv zeta.
  assert (Er : tabulate c (channel_mean h w c (telems t)) = averages t h w c) by (apply tabulate_ext; intros; apply channel_mean_average).
  rewrite Er. fold (offsets_of t h w c).
  destruct (extract_content R 0 {| tshape := [h; w; c]; telems := offsets_of t h w c |} h w c ts eq_refl Hts Ph Pw) as (tiles & E & S & L & C).
  rewrite E. cbn [bind]. rewrite S. exists (rows (ceil_div h ts * ceil_div w ts) (ts * ts * c) (telems tiles)).
  split; [reflexivity|]. split; [apply rows_length|].
  assert (L' : length (telems tiles) = (ceil_div h ts * ceil_div w ts * (ts * ts * c))%nat) by (rewrite L, S; unfold prodl; cbn [fold_right]; ring).
  split; [now apply rows_width|].
  intros ty tx Hty Htx y x ch r q Hy Hx Hc Mr Mq. unfold el. 
  assert (I : (ty * ceil_div w ts + tx < ceil_div h ts * ceil_div w ts)%nat) by nia.
  rewrite nth_rows by (first [exact I|now apply index_lt]).
  replace ((ty * ceil_div w ts + tx) * (ts * ts * c) + ((y * ts + x) * c + ch))%nat
    with (ravel [ceil_div h ts; ceil_div w ts; ts; ts; c] [ty; tx; y; x; ch]) by (simpl; lia).
  rewrite (C ty tx y x ch r q Hty Htx Hy Hx Hc Mr Mq). cbn [telems].
  assert (Hp : (0 < h)%nat) by (destruct h; [cbn in Hty; unfold ceil_div in Hty; rewrite Nat.div_small in Hty by lia; lia|lia]).
  assert (Wp : (0 < w)%nat) by (destruct w; [cbn in Htx; unfold ceil_div in Htx; rewrite Nat.div_small in Htx by lia; lia|lia]).
  replace (ravel [h; w; c] [r; q; ch]) with ((r * w + q) * c + ch)%nat by (simpl; lia).
  apply offset_at; [now apply (mirrored_lt h (ty * ts + y))|now apply (mirrored_lt w (tx * ts + x))|exact Hc].
Qed.

Lemma combine_rows ref tiles h w c ts rest : (0 < ts)%nat -> length ref = c ->
  length tiles = (ceil_div h ts * ceil_div w ts)%nat -> Forall (fun r => length r = (ts * ts * c)%nat) tiles ->
  exists out, codec_combine_tiles ref tiles (ts * ts * c) (h :: w :: rest) ts = Ok out /\ image out h w c /\
    forall y x ch, (y < h)%nat -> (x < w)%nat -> (ch < c)%nat ->
      pixel out w c y x ch = el (nth (y / ts * ceil_div w ts + x / ts) tiles []) (place ts c y x ch) + el ref ch.
Proof.
  intros Hts Lr Lt Wt. unfold codec_combine_tiles.
  destruct (combine_content 0 {| tshape := [length tiles; (ts * ts * c)%nat]; telems := concat tiles |} (length tiles) h w c ts eq_refl) as (o & E & S & L & C).
  { cbn [telems]. now rewrite (concat_width (ts * ts * c)), Lt. }
  { exact Hts. }
  rewrite E. cbn [bind]. rewrite S, Lr, Nat.eqb_refl. eexists. split; [reflexivity|]. split.
  { split; cbn [tshape telems]; [reflexivity|]. now rewrite tabulate_length. }
  intros y x ch Hy Hx Hc. unfold pixel. cbn [telems]. fold (el (tabulate (length (telems o)) (fun k => el (telems o) k + el ref (k mod c))) ((y * w + x) * c + ch)).
  rewrite el_tabulate by (rewrite L; now apply index_lt).
  replace (((y * w + x) * c + ch) mod c)%nat with ch by (rewrite Nat.add_comm, Nat.mod_add, Nat.mod_small; lia). f_equal.
  unfold el at 1. rewrite C by assumption. cbn [telems]. destruct (ceil_div_mul h ts Hts) as [Hh _]. destruct (ceil_div_mul w ts Hts) as [Hw _].
  pose proof (Nat.div_mod y ts ltac:(lia)). pose proof (Nat.mod_upper_bound y ts ltac:(lia)).
  pose proof (Nat.div_mod x ts ltac:(lia)). pose proof (Nat.mod_upper_bound x ts ltac:(lia)).
  assert (y / ts < ceil_div h ts)%nat by nia. assert (x / ts < ceil_div w ts)%nat by nia.
  apply nth_concat; [exact Wt|rewrite Lt; nia|]. unfold place. 
  assert (y mod ts * ts + x mod ts + 1 <= ts * ts)%nat by nia. nia.
Qed.
