(** The slab test, and boxes as frames. *)
From Coq Require Import Reals Lra Lia Psatz.
From Verif Require Import Base GeomModel GeomBase FrameModel FrameSpec FrameProofs RayModel RaySpec.
Open Scope R_scope.

(** ** The slab of a dimension *)
Lemma margin_pos : 0 < / 10 ^ 10. Proof. apply Rinv_0_lt_compat, pow_lt. lra. Qed.
Definition nudge1 (u : R) : R := u + ray_dir_margin * b2r (is_zero u).
Lemma nudge1_ok u : nudge u (nudge1 u).
Proof.
  unfold nudge, nudge1, is_zero, ray_dir_margin. destruct (Req_EM_T u 0) as [E|E]; unfold b2r.
  - right. split; [exact E|]. rewrite E. lra.
  - left. split; [exact E|]. lra.
Qed.
Lemma nudge_unique u a : nudge u a -> a = nudge1 u.
Proof. pose proof (nudge1_ok u) as H. unfold nudge in *. intros. destruct H as [[? H]|[? H]]; rewrite H; intuition. Qed.
Lemma nudge_nonzero u a : nudge u a -> a <> 0.
Proof. pose proof margin_pos. unfold nudge. intros [[? E]|[? E]]; rewrite E; lra. Qed.
Lemma nudge_same u : u <> 0 -> nudge u u. Proof. left. split; auto. Qed.

Lemma slab_neg o u s : nudge1 u < 0 -> slab o u s = ((s / 2 - o) / nudge1 u, (- s / 2 - o) / nudge1 u).
Proof.
  intros N. unfold slab, inv_ray_dir. fold (nudge1 u). cbv zeta. assert (I : 1 / nudge1 u < 0) by (unfold Rdiv; rewrite Rmult_1_l; now apply Rinv_lt_0_compat).
  rewrite (proj2 (rltb_iff _ _) I). unfold b2r, sel_bounds. apply pair_equal_spec. split; field; lra.
Qed.
Lemma slab_pos o u s : 0 < nudge1 u -> slab o u s = ((- s / 2 - o) / nudge1 u, (s / 2 - o) / nudge1 u).
Proof.
  intros N. unfold slab, inv_ray_dir. fold (nudge1 u). cbv zeta. assert (I : 0 < 1 / nudge1 u) by (apply Rdiv_lt_0_compat; lra).
  rewrite (proj2 (rltb_false (1 / nudge1 u) 0)) by lra. unfold b2r, sel_bounds. apply pair_equal_spec. split; field; lra.
Qed.
Lemma div_le_pos a b t : 0 < b -> (a / b <= t <-> a <= t * b).
Proof.
  intros B. split; intros H.
  - replace a with (a / b * b) by (field; lra). apply Rmult_le_compat_r; lra.
  - replace t with (t * b / b) by (field; lra). unfold Rdiv. apply Rmult_le_compat_r; [|lra]. apply Rlt_le, Rinv_0_lt_compat, B.
Qed.
Lemma le_div_pos a b t : 0 < b -> (t <= a / b <-> t * b <= a).
Proof.
  intros B. split; intros H.
  - replace a with (a / b * b) by (field; lra). apply Rmult_le_compat_r; lra.
  - replace t with (t * b / b) by (field; lra). unfold Rdiv. apply Rmult_le_compat_r; [|lra]. apply Rlt_le, Rinv_0_lt_compat, B.
Qed.
Lemma div_opp a b : b <> 0 -> a / b = - a / - b. Proof. intros. field. lra. Qed.
Lemma div_le_neg a b t : b < 0 -> (a / b <= t <-> t * b <= a).
Proof. intros B. rewrite div_opp by lra. rewrite div_le_pos by lra. split; lra. Qed.
Lemma le_div_neg a b t : b < 0 -> (t <= a / b <-> a <= t * b).
Proof. intros B. rewrite div_opp by lra. rewrite le_div_pos by lra. split; lra. Qed.

Lemma Rabs_le_iff x y : Rabs x <= y <-> - y <= x <= y.
Proof. unfold Rabs. destruct (Rcase_abs x); split; lra. Qed.
Lemma Rabs_lt_iff x y : Rabs x < y <-> - y < x < y.
Proof. unfold Rabs. destruct (Rcase_abs x); split; lra. Qed.
Lemma slab_iff o u s a b : slab o u s = (a, b) -> forall t, Rabs (o + t * nudge1 u) <= s / 2 <-> a <= t <= b.
Proof.
  intros E t. pose proof (nudge_nonzero _ _ (nudge1_ok u)) as N. rewrite Rabs_le_iff.
  destruct (Rtotal_order (nudge1 u) 0) as [L|[Z|G]]; [|lra|].
  - rewrite slab_neg in E by exact L. injection E as <- <-. rewrite (div_le_neg _ _ t L), (le_div_neg _ _ t L). lra.
  - rewrite slab_pos in E by exact G. injection E as <- <-. rewrite (div_le_pos _ _ t G), (le_div_pos _ _ t G). lra.
Qed.
Lemma slab_ordered o u s a b : slab o u s = (a, b) -> 0 <= s -> a <= b.
Proof.
  intros E S0. pose proof (nudge_nonzero _ _ (nudge1_ok u)) as N. pose proof (proj1 (slab_iff o u s a b E (- o / nudge1 u))) as H.
  assert (Z : o + - o / nudge1 u * nudge1 u = 0) by (field; exact N). rewrite Z, Rabs_R0 in H. specialize (H ltac:(lra)). lra.
Qed.

(** ** The three slabs *)
Definition nudged3 (d : vec3) : vec3 := (nudge1 (X d), nudge1 (Y d), nudge1 (Z_ d)).
Lemma nudged3_ok d : nudged d (nudged3 d).
Proof. destruct d as [[u v] w]. unfold nudged, nudged3, X, Y, Z_. cbn [fst snd]. split; [|split]; apply nudge1_ok. Qed.
Lemma nudged_unique d d' : nudged d d' -> d' = nudged3 d.
Proof.
  destruct d as [[u v] w], d' as [[u' v'] w']. unfold nudged, nudged3, X, Y, Z_. cbn [fst snd]. intros (A & B & C).
  now rewrite (nudge_unique _ _ A), (nudge_unique _ _ B), (nudge_unique _ _ C).
Qed.
Lemma nudged_slanted d d' : slanted d -> nudged d d' -> d' = d.
Proof.
  destruct d as [[u v] w], d' as [[u' v'] w']. unfold slanted, nudged, nudge. intros (A & B & C) (P & Q & T).
  destruct P as [[_ P]|[P _]]; [|now elim A]. destruct Q as [[_ Q]|[Q _]]; [|now elim B]. destruct T as [[_ T]|[T _]]; [|now elim C].
  now rewrite P, Q, T.
Qed.
Lemma slanted_nudged d : slanted d -> nudged d d.
Proof. destruct d as [[u v] w]. unfold slanted, nudged. intros (A & B & C). split; [|split]; now apply nudge_same. Qed.

Lemma intersects_iff o d s f a b : get_ray_box_intersects o d s = (f, a, b) ->
  (forall t, in_centered s (ray_at o (nudged3 d) t) <-> a <= t <= b) /\
  (lengths s -> (f = true <-> a <= b /\ 0 < b)).
Proof.
  destruct o as [[ox oy] oz], d as [[dx dy] dz], s as [[sx sy] sz]. unfold get_ray_box_intersects, lengths, in_centered, ray_at, nudged3, X, Y, Z_. cbn [fst snd].
  destruct (slab ox dx sx) as [xa xb] eqn:EX. destruct (slab oy dy sy) as [ya yb] eqn:EY. destruct (slab oz dz sz) as [za zb] eqn:EZ. cbv zeta.
  intros E. apply pair_equal_spec in E. destruct E as [E Eb]. apply pair_equal_spec in E. destruct E as [Ef Ea]. split.
  - intros t. rewrite (slab_iff _ _ _ _ _ EX), (slab_iff _ _ _ _ _ EY), (slab_iff _ _ _ _ _ EZ). rewrite <- Ea, <- Eb.
    unfold Rmax, Rmin. repeat (destruct (Rle_dec _ _)); lra.
  - intros (SX & SY & SZ). apply slab_ordered in EX; [|exact SX]. apply slab_ordered in EY; [|exact SY]. apply slab_ordered in EZ; [|exact SZ].
    rewrite <- Ef, <- Ea, <- Eb. clear Ef Ea Eb.
    destruct (rleb (Rmin (Rmin xb yb) zb) 0) eqn:T.
    { apply rleb_iff in T. split; [discriminate|intros [_ ?]; lra]. }
    apply rleb_false in T.
    destruct (rltb (Rmin xb yb) za) eqn:F1.
    { apply rltb_iff in F1. split; [discriminate|]. intros [H _]. revert F1 H. unfold Rmax, Rmin. repeat (destruct (Rle_dec _ _)); lra. }
    apply rltb_false in F1.
    destruct (rltb zb (Rmax xa ya)) eqn:F2.
    { apply rltb_iff in F2. split; [discriminate|]. intros [H _]. revert F2 H. unfold Rmax, Rmin. repeat (destruct (Rle_dec _ _)); lra. }
    apply rltb_false in F2.
    destruct (rltb xb ya) eqn:F3.
    { apply rltb_iff in F3. split; [discriminate|]. intros [H _]. revert F3 H. unfold Rmax, Rmin. repeat (destruct (Rle_dec _ _)); lra. }
    apply rltb_false in F3.
    destruct (rltb yb xa) eqn:F4.
    { apply rltb_iff in F4. split; [discriminate|]. intros [H _]. revert F4 H. unfold Rmax, Rmin. repeat (destruct (Rle_dec _ _)); lra. }
    apply rltb_false in F4. split; [|reflexivity]. intros _. split; [|lra].
    revert F1 F2 F3 F4. unfold Rmax, Rmin. repeat (destruct (Rle_dec _ _)); lra.
Qed.

Theorem intersects_exact : forall o d d' s f a b, nudged d d' -> get_ray_box_intersects o d s = (f, a, b) ->
  (forall t, in_centered s (ray_at o d' t) <-> a <= t <= b) /\
  (lengths s -> (f = true <-> meets_ahead s o d') /\ (f = false <-> b < a \/ b <= 0)).
Proof.
  intros o d d' s f a b N E. apply nudged_unique in N. subst d'. destruct (intersects_iff _ _ _ _ _ _ E) as [I F]. split; [exact I|].
  intros L. specialize (F L). split.
  - rewrite F. unfold meets_ahead. split.
    + intros [AB B]. exists b. split; [exact B|]. apply I. lra.
    + intros (t & T & H). apply I in H. lra.
  - destruct f; split; intros H; try discriminate; try reflexivity.
    + destruct (proj1 F eq_refl). lra.
    + destruct (Rlt_dec b a) as [?|?]; [now left|]. destruct (Rle_dec b 0) as [?|?]; [now right|]. discriminate (proj2 F ltac:(lra)).
Qed.
Theorem slanted_exact : forall o d s f a b, slanted d -> get_ray_box_intersects o d s = (f, a, b) ->
  (forall t, in_centered s (ray_at o d t) <-> a <= t <= b) /\
  (lengths s -> (f = true <-> meets_ahead s o d) /\ (f = false <-> b < a \/ b <= 0)).
Proof. intros o d s f a b N. apply intersects_exact, slanted_nudged, N. Qed.

(** ** Origins in the box *)
Lemma ray_at_0 o d : ray_at o d 0 = o.
Proof. destruct o as [[? ?] ?], d as [[? ?] ?]. unfold ray_at. rewrite !Rmult_0_l, !Rplus_0_r. reflexivity. Qed.
Lemma slab_inside o u s a b : slab o u s = (a, b) -> Rabs o < s / 2 -> a < 0 < b.
Proof.
  intros E H. pose proof (nudge_nonzero _ _ (nudge1_ok u)) as N. apply Rabs_lt_iff in H.
  destruct (Rtotal_order (nudge1 u) 0) as [L|[Z|G]]; [|lra|].
  - rewrite slab_neg in E by exact L. injection E as <- <-. assert (I : / nudge1 u < 0) by now apply Rinv_lt_0_compat. unfold Rdiv in *.
    split; nra.
  - rewrite slab_pos in E by exact G. injection E as <- <-. assert (I : 0 < / nudge1 u) by now apply Rinv_0_lt_compat. unfold Rdiv in *.
    split; nra.
Qed.
Theorem inside_origin : forall o d s f a b, strictly_in_centered s o -> get_ray_box_intersects o d s = (f, a, b) ->
  f = true /\ a < 0 < b.
Proof.
  intros o d s f a b I E. assert (L : lengths s).
  { destruct o as [[? ?] ?], s as [[? ?] ?]. cbn [strictly_in_centered lengths] in *. destruct I as (A & B & C).
    pose proof (Rabs_pos r); pose proof (Rabs_pos r0); pose proof (Rabs_pos r1). lra. }
  assert (P : a < 0 < b).
  { revert I E. clear L. destruct o as [[ox oy] oz], d as [[dx dy] dz], s as [[sx sy] sz]. unfold get_ray_box_intersects, strictly_in_centered, X, Y, Z_. cbn [fst snd].
    intros (A & B & C). destruct (slab ox dx sx) as [xa xb] eqn:EX. destruct (slab oy dy sy) as [ya yb] eqn:EY. destruct (slab oz dz sz) as [za zb] eqn:EZ. cbv zeta.
    apply slab_inside in EX; [|exact A]. apply slab_inside in EY; [|exact B]. apply slab_inside in EZ; [|exact C].
    intros E. apply pair_equal_spec in E. destruct E as [E Eb]. apply pair_equal_spec in E. destruct E as [Ef Ea]. rewrite <- Ea, <- Eb.
    unfold Rmax, Rmin. repeat (destruct (Rle_dec _ _)); lra. }
  split; [|exact P]. destruct (intersects_iff _ _ _ _ _ _ E) as [_ F]. apply (F L). lra.
Qed.

(** ** Directions with zeros, against the ray itself *)
Lemma nudge_drift u a o l t : nudge u a -> 0 <= t -> u = 0 -> Rabs (o + t * a) <= l -> Rabs (o + t * u) <= l + t * / 10 ^ 10.
Proof.
  intros N T Z H. destruct N as [[? _]|[_ E]]; [contradiction|]. rewrite Z, E in *. apply Rabs_le_iff in H. apply Rabs_le_iff.
  pose proof margin_pos. nra.
Qed.
Theorem flagged_near : forall o d s f a b, lengths s -> get_ray_box_intersects o d s = (f, a, b) -> f = true ->
  exists t s', 0 < t <= b /\ widened d (t / 10 ^ 10) s s' /\ in_centered s' (ray_at o d t).
Proof.
  intros o d s f a b L E F. destruct (intersects_exact o d (nudged3 d) s f a b (nudged3_ok d) E) as [I J]. destruct (J L) as [K _].
  destruct (proj1 K F) as (t & T & H). pose proof (proj1 (I t) H) as B. clear I J K F E.
  exists t. pose proof (nudged3_ok d) as N. destruct o as [[ox oy] oz], d as [[dx dy] dz], s as [[sx sy] sz]. unfold nudged3, X, Y, Z_ in *. cbn [fst snd] in *.
  cbn [in_centered ray_at nudged] in *. destruct H as (HX & HY & HZ). destruct N as (NX & NY & NZ).
  exists ((if Req_EM_T dx 0 then sx + 2 * (t / 10 ^ 10) else sx), (if Req_EM_T dy 0 then sy + 2 * (t / 10 ^ 10) else sy), (if Req_EM_T dz 0 then sz + 2 * (t / 10 ^ 10) else sz)).
  assert (K : forall o u s n, nudge u n -> Rabs (o + t * n) <= s / 2 ->
    ((u <> 0 /\ (if Req_EM_T u 0 then s + 2 * (t / 10 ^ 10) else s) = s) \/ (u = 0 /\ (if Req_EM_T u 0 then s + 2 * (t / 10 ^ 10) else s) = s + 2 * (t / 10 ^ 10))) /\
    Rabs (o + t * u) <= (if Req_EM_T u 0 then s + 2 * (t / 10 ^ 10) else s) / 2).
  { intros o' u s n N H. destruct (Req_EM_T u 0) as [Z|Z].
    - split; [right; split; [exact Z|reflexivity]|]. pose proof (nudge_drift _ _ _ _ _ N (Rlt_le _ _ T) Z H). unfold Rdiv in *. lra.
    - split; [left; split; [exact Z|reflexivity]|]. destruct N as [[_ N]|[? _]]; [|contradiction]. now rewrite <- N. }
  pose proof (K _ _ _ _ NX HX) as [KX1 KX2]. pose proof (K _ _ _ _ NY HY) as [KY1 KY2]. pose proof (K _ _ _ _ NZ HZ) as [KZ1 KZ2].
  split; [lra|]. split; [unfold widened; cbv zeta; split; [exact KX1|split; [exact KY1|exact KZ1]]|]. split; [exact KX2|split; [exact KY2|exact KZ2]].
Qed.
Theorem clear_hit_flagged : forall o d s s' f a b t, lengths s -> 0 < t -> widened d (- (t / 10 ^ 10)) s s' ->
  in_centered s' (ray_at o d t) -> get_ray_box_intersects o d s = (f, a, b) -> f = true /\ a <= t <= b.
Proof.
  intros o d s s' f a b t L T W H E. destruct (intersects_exact o d (nudged3 d) s f a b (nudged3_ok d) E) as [I J]. destruct (J L) as [K _].
  assert (P : in_centered s (ray_at o (nudged3 d) t)).
  { clear I J K E. pose proof (nudged3_ok d) as N. destruct o as [[ox oy] oz], d as [[dx dy] dz], s as [[sx sy] sz], s' as [[tx ty] tz]. unfold nudged3, X, Y, Z_ in *. cbn [fst snd] in *.
    cbn [in_centered ray_at nudged widened] in *. destruct H as (HX & HY & HZ). destruct N as (NX & NY & NZ). destruct W as (WX & WY & WZ).
    assert (K : forall o u s s' n, nudge u n -> (u <> 0 /\ s' = s) \/ (u = 0 /\ s' = s + 2 * - (t / 10 ^ 10)) -> Rabs (o + t * u) <= s' / 2 -> Rabs (o + t * n) <= s / 2).
    { intros o' u s s' n [[Nz ->]|[Z ->]] [[Z' ->]|[Z' ->]] Q; try contradiction; [exact Q|]. rewrite Z in Q. apply Rabs_le_iff in Q. apply Rabs_le_iff.
      pose proof margin_pos. unfold Rdiv in *. nra. }
    split; [exact (K _ _ _ _ _ NX WX HX)|split; [exact (K _ _ _ _ _ NY WY HY)|exact (K _ _ _ _ _ NZ WZ HZ)]]. }
  split; [|now apply I]. apply K. exists t. now split.
Qed.

(** ** The parameter and the distance *)
Theorem parameter_distance : forall o d t, distance (ray_at o d t) o = Rabs t * length3 d.
Proof.
  intros [[ox oy] oz] [[dx dy] dz] t. unfold distance, ray_at, length3. rewrite <- sqrt_Rsqr_abs, <- sqrt_mult_alt by apply Rle_0_sqr.
  f_equal. unfold Rsqr. ring.
Qed.
