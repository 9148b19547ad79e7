From Verif Require Import Base NdArray NdArrayProofs TilingModel TilingSpec.
Open Scope nat_scope.

Lemma ceil_div_mul a b : 0 < b -> a <= ceil_div a b * b /\ ceil_div a b * b < a + b.
Proof.
  intros Hb. unfold ceil_div.
  pose proof (Nat.div_mod (a + b - 1) b ltac:(lia)) as E.
  pose proof (Nat.mod_upper_bound (a + b - 1) b ltac:(lia)). nia.
Qed.

Lemma perm_pair_02134 : is_perm_pair 5 [0; 2; 1; 3; 4] [0; 2; 1; 3; 4].
Proof.
  split; [reflexivity|]. split; [reflexivity|].
  split; intros i Hi; destruct i as [|[|[|[|[|i]]]]]; simpl; lia.
Qed.

Lemma flat5 a b c d (e : nat) : prodl [a; b; c; d; e] = a * b * (c * d) * e.
Proof. unfold prodl. simpl. lia. Qed.

Section Proofs.
Context {A : Type} (d : A).

Lemma reshape_ok (t : tensor A) sh :
  length (telems t) = prodl sh -> reshape t sh = Ok {| tshape := sh; telems := telems t |}.
Proof. intros H. unfold reshape. now rewrite H, Nat.eqb_refl. Qed.

Definition well_formed (t : tensor A) : Prop := length (telems t) = prodl (tshape t).


Lemma extract_ok (x : tensor A) h w c ts :
  tshape x = [h; w; c] -> 0 < ts -> pad_allowed h ts -> pad_allowed w ts ->
  exists tiles,
    extract_tiles d x ts = Ok tiles /\
    tshape tiles = [ceil_div h ts * ceil_div w ts; ts * ts * c] /\
    well_formed tiles /\
    (forall ty tx y xx ch, ty < ceil_div h ts -> tx < ceil_div w ts -> y < ts -> xx < ts -> ch < c ->
      nth (ravel [ceil_div h ts; ceil_div w ts; ts; ts; c] [ty; tx; y; xx; ch]) (telems tiles) d =
      nth (ravel [h; w; c] [reflect h (ty * ts + y); reflect w (tx * ts + xx); ch]) (telems x) d).
Proof.
  intros Hsh Hts Hph Hpw. unfold extract_tiles. rewrite Hsh.
  replace (ts =? 0) with false by (symmetry; apply Nat.eqb_neq; lia).
  unfold pad_reflect, padded_height, padded_width, num_tiles_y, num_tiles_x.
  cbn [orig_height orig_width tile_size dims].
  unfold pad_allowed in *.
  replace ((ceil_div h ts * ts - h <=? h - 1) && (ceil_div w ts * ts - w <=? w - 1)) with true
    by (symmetry; apply andb_true_intro; split; apply Nat.leb_le; assumption).
  cbn [bind].
  set (ny := ceil_div h ts) in *. set (nx := ceil_div w ts) in *.
  assert (E0 : prodl [ny * ts; nx * ts; c] = prodl [ny; ts; nx; ts; c]) by (unfold prodl; simpl; lia).
  rewrite reshape_ok by (cbn [telems]; rewrite tabulate_length; exact E0). cbn [bind telems].
  assert (E1 : prodl (permute [0; 2; 1; 3; 4] [ny; ts; nx; ts; c]) = prodl [ny * nx; ts * ts * c])
    by (unfold prodl; simpl; lia).
  unfold transpose_t. cbn [telems tshape].
  rewrite reshape_ok by (cbn [telems]; rewrite transpose_length; exact E1). cbn [telems].
  eexists. split; [reflexivity|]. cbn [tshape telems]. split; [reflexivity|]. split.
  { unfold well_formed. cbn [telems tshape]. rewrite transpose_length. exact E1. }
  intros ty tx y xx ch H1 H2 H3 H4 H5.
  assert (Hv : valid_index [ny; ts; nx; ts; c] [ty; y; tx; xx; ch])
    by (unfold valid_index; repeat constructor; lia).
  change [ty; tx; y; xx; ch] with (permute [0; 2; 1; 3; 4] [ty; y; tx; xx; ch]).
  change [ny; nx; ts; ts; c] with (permute [0; 2; 1; 3; 4] [ny; ts; nx; ts; c]).
  rewrite (nth_transpose d 5 _ _ [0; 2; 1; 3; 4]); [|exact perm_pair_02134|reflexivity|reflexivity|exact Hv].
  assert (Hv2 : valid_index [ny * ts; nx * ts; c] [ty * ts + y; tx * ts + xx; ch]).
  { unfold valid_index. constructor; [nia|]. constructor; [nia|]. repeat constructor. lia. }
  assert (Er : ravel [ny; ts; nx; ts; c] [ty; y; tx; xx; ch]
             = ravel [ny * ts; nx * ts; c] [ty * ts + y; tx * ts + xx; ch]).
  { simpl. lia. }
  rewrite Er. rewrite nth_tabulate by (now apply ravel_lt).
  rewrite unravel_ravel by exact Hv2. reflexivity.
Qed.

Lemma combine_extract (x : tensor A) h w c ts :
  tshape x = [h; w; c] -> well_formed x -> 0 < ts -> pad_allowed h ts -> pad_allowed w ts ->
  exists tiles,
    extract_tiles d x ts = Ok tiles /\
    tshape tiles = [ceil_div h ts * ceil_div w ts; ts * ts * c] /\ well_formed tiles /\
    combine_tiles d tiles h w ts = Ok x.
Proof.
  intros Hsh Hwf Hts Hph Hpw.
  destruct (extract_ok x h w c ts Hsh Hts Hph Hpw) as (tiles & Ex & Hs & Hw & Hn).
  exists tiles. split; [exact Ex|]. split; [exact Hs|]. split; [exact Hw|].
  unfold combine_tiles.
  replace (ts =? 0) with false by (symmetry; apply Nat.eqb_neq; lia).
  rewrite Hs. cbn [last].
  assert (Ec : ts * ts * c / (ts * ts) = c) by (rewrite Nat.mul_comm; apply Nat.div_mul; nia).
  rewrite Ec, Nat.eqb_refl. cbn [negb].
  unfold num_tiles_y, num_tiles_x, padded_height, padded_width, num_tiles_y, num_tiles_x.
  cbn [orig_height orig_width tile_size dims].
  destruct (ceil_div_mul h ts Hts) as [Hh1 Hh2]. destruct (ceil_div_mul w ts Hts) as [Hw1 Hw2].
  set (ny := ceil_div h ts) in *. set (nx := ceil_div w ts) in *.
  assert (E0 : prodl [ny * nx; ts * ts * c] = prodl [ny; nx; ts; ts; c]) by (unfold prodl; simpl; lia).
  rewrite reshape_ok by (unfold well_formed in Hw; rewrite Hw, Hs; exact E0). cbn [bind].
  assert (E1 : prodl (permute [0; 2; 1; 3; 4] [ny; nx; ts; ts; c]) = prodl [ny * ts; nx * ts; c])
    by (unfold prodl; simpl; lia).
  unfold transpose_t. cbn [telems tshape].
  rewrite reshape_ok by (cbn [telems]; rewrite transpose_length; exact E1). cbn [bind]. unfold crop. cbn [tshape telems].
  rewrite (Nat.min_l h), (Nat.min_l w) by lia.
  f_equal. destruct x as [sx ex]. cbn [tshape telems] in *. subst sx. f_equal.
  unfold well_formed in Hwf. cbn [tshape telems] in Hwf. transitivity (tabulate (length ex) (fun k => nth k ex d)); [|apply tabulate_nth].
  rewrite Hwf. apply tabulate_ext. intros k Hk.
  pose proof (unravel_valid _ _ Hk) as Hv. pose proof (ravel_unravel _ _ Hk) as Hr.
  destruct (unravel [h; w; c] k) as [|i [|j [|ch [|z rest]]]] eqn:Eu;
    try (exfalso; apply valid_index_nth in Hv as [Hl _]; simpl in Hl; lia).
  apply valid_index_nth in Hv as [_ Hv].
  pose proof (Hv 0 ltac:(simpl; lia)) as Hi. pose proof (Hv 1 ltac:(simpl; lia)) as Hj.
  pose proof (Hv 2 ltac:(simpl; lia)) as Hc. simpl in Hi, Hj, Hc.
  pose proof (Nat.div_mod i ts ltac:(lia)) as Di. pose proof (Nat.mod_upper_bound i ts ltac:(lia)) as Mi.
  pose proof (Nat.div_mod j ts ltac:(lia)) as Dj. pose proof (Nat.mod_upper_bound j ts ltac:(lia)) as Mj.
  set (ty := i / ts) in *. set (y := i mod ts) in *. set (tx := j / ts) in *. set (xx := j mod ts) in *.
  assert (Hty : ty < ny) by nia. assert (Htx : tx < nx) by nia.
  assert (Er : ravel [ny * ts; nx * ts; c] [i; j; ch] = ravel [ny; ts; nx; ts; c] [ty; y; tx; xx; ch]).
  { rewrite Di, Dj. simpl. lia. }
  rewrite Er.
  assert (Hv5 : valid_index [ny; nx; ts; ts; c] [ty; tx; y; xx; ch])
    by (unfold valid_index; repeat constructor; lia).
  change [ty; y; tx; xx; ch] with (permute [0; 2; 1; 3; 4] [ty; tx; y; xx; ch]).
  change [ny; ts; nx; ts; c] with (permute [0; 2; 1; 3; 4] [ny; nx; ts; ts; c]).
  rewrite (nth_transpose d 5 _ _ [0; 2; 1; 3; 4]); [|exact perm_pair_02134|reflexivity|reflexivity|exact Hv5].
  rewrite Hn by assumption.
  replace (ty * ts + y) with i by lia. replace (tx * ts + xx) with j by lia.
  unfold reflect. rewrite (proj2 (Nat.ltb_lt i h) Hi), (proj2 (Nat.ltb_lt j w) Hj).
  now rewrite Hr.
Qed.

(** Images too small for reflection are rejected. *)
Lemma extract_rejects (x : tensor A) h w c ts :
  tshape x = [h; w; c] -> 0 < ts -> ~ (pad_allowed h ts /\ pad_allowed w ts) ->
  extract_tiles d x ts = Err ValueError.
Proof.
  intros Hsh Hts Hn. unfold extract_tiles. rewrite Hsh.
  replace (ts =? 0) with false by (symmetry; apply Nat.eqb_neq; lia).
  unfold pad_reflect, padded_height, padded_width, num_tiles_y, num_tiles_x.
  cbn [orig_height orig_width tile_size dims]. unfold pad_allowed in Hn.
  destruct ((ceil_div h ts * ts - h <=? h - 1) && (ceil_div w ts * ts - w <=? w - 1)) eqn:E; [|reflexivity].
  exfalso. apply Hn. apply andb_true_iff in E as [E1 E2].
  split; apply Nat.leb_le; assumption.
Qed.

(** A last dimension that is not a multiple of the tile area is rejected. *)
Lemma combine_rejects (t : tensor A) h w ts :
  0 < ts -> last (tshape t) 0 mod (ts * ts) <> 0 -> combine_tiles d t h w ts = Err ValueError.
Proof.
  intros Hts Hm. unfold combine_tiles.
  replace (ts =? 0) with false by (symmetry; apply Nat.eqb_neq; lia).
  destruct (Nat.eqb_spec (last (tshape t) 0) (ts * ts * (last (tshape t) 0 / (ts * ts)))) as [E|E];
    [|reflexivity].
  exfalso. apply Hm. rewrite E, Nat.mul_comm. apply Nat.mod_mul. nia.
Qed.
End Proofs.

Lemma reflect_mirrored n i m : mirrored n i m -> reflect n i = m.
Proof.
  unfold mirrored, reflect. intros [(H & ->)|(H & E)].
  - now rewrite (proj2 (Nat.ltb_lt i n) H).
  - rewrite (proj2 (Nat.ltb_ge i n) H). lia.
Qed.

Lemma ceil_div_fewest n ts : 0 < ts -> fewest_tiles n ts (ceil_div n ts).
Proof.
  intros H. unfold fewest_tiles, ceil_div. split.
  - pose proof (Nat.div_mod (n + ts - 1) ts ltac:(lia)) as E.
    pose proof (Nat.mod_upper_bound (n + ts - 1) ts ltac:(lia)).
    nia.
  - intros k' Hk. apply Nat.lt_succ_r. apply Nat.div_lt_upper_bound; [lia|]. nia.
Qed.

Lemma extract_content : forall A (d : A) (x : tensor A) h w c ts,
  tshape x = [h; w; c] -> 0 < ts -> pad_allowed h ts -> pad_allowed w ts ->
  exists tiles,
    extract_tiles d x ts = Ok tiles /\
    tshape tiles = [ceil_div h ts * ceil_div w ts; ts * ts * c] /\
    length (telems tiles) = prodl (tshape tiles) /\
    (forall ty tx y xx ch r q, ty < ceil_div h ts -> tx < ceil_div w ts -> y < ts -> xx < ts -> ch < c ->
      mirrored h (ty * ts + y) r -> mirrored w (tx * ts + xx) q ->
      nth (ravel [ceil_div h ts; ceil_div w ts; ts; ts; c] [ty; tx; y; xx; ch]) (telems tiles) d =
      nth (ravel [h; w; c] [r; q; ch]) (telems x) d).
Proof.
  intros A d x h w c ts H1 H2 H3 H4.
  destruct (extract_ok d x h w c ts H1 H2 H3 H4) as (t & E & S & L & C).
  exists t. split; [exact E|]. split; [exact S|]. split; [exact L|].
  intros ty tx y xx ch r q A1 A2 A3 A4 A5 M1 M2. rewrite C by assumption.
  now rewrite (reflect_mirrored _ _ _ M1), (reflect_mirrored _ _ _ M2).
Qed.
