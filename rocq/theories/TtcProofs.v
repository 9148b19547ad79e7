(** Following and the time to collision. *)
From Coq Require Import Reals Lra Psatz List Lia Bool.
From Verif Require Import Base ResultLib MonadLib KinematicModel KinematicProofs GeomModel GeomSpec GeomSceneSpec GeomBase GeomNearestProofs RoadBoxProofs TtcModel TtcSpec.
Import ListNotations.
Open Scope R_scope.

Lemma Rabs_def2_le x m : Rabs x <= m -> - m <= x <= m.
Proof. unfold Rabs. destruct (Rcase_abs x); lra. Qed.

(** ** One pair of boxes *)
Section Pair.
Variables e o : obox.
Notation y := (bheading o - bheading e).
Lemma abs_cos : Rabs (cos (yaw_diff e o)) = Rabs (cos y).
Proof. unfold yaw_diff, Rabs at 2. destruct (Rcase_abs y); [now rewrite cos_neg|reflexivity]. Qed.
Lemma abs_sin : Rabs (sin (yaw_diff e o)) = Rabs (sin y).
Proof. unfold yaw_diff, Rabs at 2. destruct (Rcase_abs y); [now rewrite sin_neg, Rabs_Ropp|reflexivity]. Qed.
Definition at_uv (u v : R) : point :=
  (bx o + u * cos (bheading o) - v * sin (bheading o), by_ o + u * sin (bheading o) + v * cos (bheading o)).
Lemma forward_uv u v : forward e (at_uv u v) = fst (relative_xy e o) + u * cos y - v * sin y.
Proof.
  unfold forward, at_uv, relative_xy, rotate_2d, psub. cbn [fst snd]. rewrite cos_minus, sin_minus, cos_neg, sin_neg. ring.
Qed.
Lemma leftward_uv u v : leftward e (at_uv u v) = snd (relative_xy e o) + u * sin y + v * cos y.
Proof.
  unfold leftward, at_uv, relative_xy, rotate_2d, psub. cbn [fst snd]. rewrite cos_minus, sin_minus, cos_neg, sin_neg. ring.
Qed.
Hypothesis Hl : 0 <= blength o.
Hypothesis Hw : 0 <= bwidth o.
Lemma uv_footprint u v : - (blength o / 2) <= u <= blength o / 2 -> - (bwidth o / 2) <= v <= bwidth o / 2 -> footprint_of o (at_uv u v).
Proof. intros H1 H2. exists u, v. auto. Qed.
Lemma footprint_uv p : footprint_of o p -> exists u v, - (blength o / 2) <= u <= blength o / 2 /\ - (bwidth o / 2) <= v <= bwidth o / 2 /\ p = at_uv u v.
Proof. intros [u [v [H1 [H2 H3]]]]. exists u, v. auto. Qed.
Lemma prod_bound u c m : - m <= u <= m -> Rabs (u * c) <= m * Rabs c.
Proof.
  intros H. rewrite Rabs_mult. apply Rmult_le_compat_r; [apply Rabs_pos|]. apply Rabs_le. lra.
Qed.
Lemma prod_attain c m : 0 <= m -> exists u, - m <= u <= m /\ u * c = m * Rabs c.
Proof.
  intros H. unfold Rabs. destruct (Rcase_abs c); [exists (- m)|exists m]; split; try lra; ring.
Qed.
Lemma long_distance_ahead : distance_ahead e o (long_distance e o).
Proof.
  unfold long_distance, long_offset. rewrite abs_cos, abs_sin. split.
  - destruct (prod_attain (cos y) (blength o / 2) ltac:(lra)) as [u [Hu Eu]].
    destruct (prod_attain (sin y) (bwidth o / 2) ltac:(lra)) as [v [Hv Ev]].
    exists (at_uv (- u) v). split; [apply uv_footprint; lra|]. rewrite forward_uv. lra.
  - intros p Hp. apply footprint_uv in Hp. destruct Hp as [u [v [Hu [Hv ->]]]]. rewrite forward_uv.
    assert (A := prod_bound u (cos y) (blength o / 2) Hu). assert (B := prod_bound v (sin y) (bwidth o / 2) Hv).
    apply Rabs_def2_le in A. apply Rabs_def2_le in B. lra.
Qed.
Lemma lat_offset_pos : 0 <= lat_offset e o.
Proof. unfold lat_offset. assert (A := Rabs_pos (sin (yaw_diff e o))). assert (B := Rabs_pos (cos (yaw_diff e o))). nra. Qed.
Lemma in_path_iff s : 0 <= bwidth e -> in_path e o s <-> Rabs (snd (relative_xy e o) + s) < bwidth e / 2 + lat_offset e o /\ 0 < bwidth e.
Proof.
  intros We. assert (P := lat_offset_pos). unfold lat_offset in *. rewrite abs_cos, abs_sin in *. set (c := snd (relative_xy e o)) in *. split.
  - intros [p [Hp H]]. apply footprint_uv in Hp. destruct Hp as [u [v [Hu [Hv ->]]]]. rewrite leftward_uv in H. fold c in H.
    assert (A := prod_bound u (sin y) (blength o / 2) Hu). assert (B := prod_bound v (cos y) (bwidth o / 2) Hv).
    apply Rabs_def2_le in A. apply Rabs_def2_le in B. apply Rabs_def2 in H. split; [apply Rabs_def1; lra|lra].
  - intros [H Wp]. apply Rabs_def2 in H.
    set (m := blength o / 2 * Rabs (sin y) + bwidth o / 2 * Rabs (cos y)) in *.
    destruct (prod_attain (sin y) (blength o / 2) ltac:(lra)) as [u [Hu Eu]].
    destruct (prod_attain (cos y) (bwidth o / 2) ltac:(lra)) as [v [Hv Ev]].
    assert (T : exists k, -1 <= k <= 1 /\ Rabs (c + s + k * m) < bwidth e / 2).
    { destruct (Rle_dec (Rabs (c + s)) m) as [L|L].
      - apply Rabs_def2_le in L. destruct (Req_EM_T m 0) as [Z|NZ].
        + exists 0. split; [lra|]. replace (c + s + 0 * m) with 0 by lra. rewrite Rabs_R0. lra.
        + assert (0 < m) by (unfold m in *; lra). exists (- (c + s) / m). split.
          * split; apply Rmult_le_reg_r with m; try assumption; replace (- (c + s) / m * m) with (- (c + s)) by (field; lra); lra.
          * replace (c + s + - (c + s) / m * m) with 0 by (field; lra). rewrite Rabs_R0. lra.
      - destruct (Rle_dec 0 (c + s)) as [L'|L'].
        + rewrite Rabs_right in L by lra. exists (-1). split; [lra|]. apply Rabs_def1; lra.
        + rewrite Rabs_left in L by lra. exists 1. split; [lra|]. apply Rabs_def1; lra. }
    destruct T as [k [Hk HT]]. exists (at_uv (k * u) (k * v)). split.
    + apply uv_footprint; split; nra.
    + rewrite leftward_uv. fold c. replace (c + k * u * sin y + k * v * cos y + s) with (c + s + k * (u * sin y + v * cos y)) by ring.
      rewrite Eu, Ev. exact HT.
Qed.
Lemma following_iff : 0 < bwidth e ->
  following_mask (long_distance e o) (lat_overlap e o) (yaw_diff e o) = true <-> follows e o.
Proof.
  intros We. unfold following_mask, follows. rewrite !andb_true_iff, orb_true_iff, !rltb_iff, !rleb_iff.
  destruct long_distance_ahead as [[p0 [Hp0 Ep0]] Hmin].
  assert (A : 0 < long_distance e o <-> forall p, footprint_of o p -> blength e / 2 < forward e p).
  { split.
    - intros H p Hp. apply Hmin in Hp. lra.
    - intros H. apply H in Hp0. lra. }
  assert (B : lat_overlap e o < 0 <-> in_path e o 0).
  { rewrite in_path_iff by lra. rewrite Rplus_0_r. unfold lat_overlap. split; [intros; split; lra|intros [H _]; lra]. }
  assert (C : lat_overlap e o < - SMALL_OVERLAP_THRESHOLD <-> forall s, Rabs s <= 1 / 2 -> in_path e o s).
  { unfold lat_overlap, SMALL_OVERLAP_THRESHOLD. split.
    - intros H s Hs. apply in_path_iff; [lra|]. split; [|assumption]. assert (T := Rabs_triang (snd (relative_xy e o)) s). lra.
    - intros H. destruct (Rle_dec 0 (snd (relative_xy e o))) as [L|L].
      + assert (K := H (1 / 2) ltac:(rewrite Rabs_right; lra)). apply in_path_iff in K; [|lra]. rewrite Rabs_right in K by lra.
        rewrite Rabs_right by lra. lra.
      + assert (K := H (- (1 / 2)) ltac:(rewrite Rabs_left; lra)). apply in_path_iff in K; [|lra]. rewrite Rabs_left in K by lra.
        rewrite Rabs_left by lra. lra. }
  rewrite A, B, C. unfold yaw_diff, MAX_HEADING_DIFF, MAX_HEADING_DIFF_FOR_SMALL_OVERLAP. tauto.
Qed.
End Pair.
Lemma follows_irrefl e : 0 <= blength e -> 0 <= bwidth e -> ~ follows e e.
Proof.
  intros Hl Hw [H _]. assert (K := H (at_uv e (- (blength e / 2)) 0)). rewrite forward_uv in K.
  replace (bheading e - bheading e) with 0 in K by ring. rewrite cos_0, sin_0 in K.
  assert (Z : fst (relative_xy e e) = 0) by (unfold relative_xy, rotate_2d, psub; cbn [fst snd]; ring).
  rewrite Z in K. assert (F : footprint_of e (at_uv e (- (blength e / 2)) 0)) by (apply uv_footprint; lra).
  apply K in F. lra.
Qed.

(** ** Sizes of the numbers *)
Lemma distance_ahead_unique e o d d' : distance_ahead e o d -> distance_ahead e o d' -> d = d'.
Proof.
  intros [[p [Hp Ep]] H] [[q [Hq Eq]] H']. apply H in Hq. apply H' in Hp. lra.
Qed.
Lemma mul_cos_bound x a : Rabs (cos a * x) <= Rabs x.
Proof. rewrite Rabs_mult. assert (A := COS_bound a). assert (B := Rabs_pos x). assert (Rabs (cos a) <= 1) by (apply Rabs_le; lra). nra. Qed.
Lemma mul_sin_bound x a : Rabs (sin a * x) <= Rabs x.
Proof. rewrite Rabs_mult. assert (A := SIN_bound a). assert (B := Rabs_pos x). assert (Rabs (sin a) <= 1) by (apply Rabs_le; lra). nra. Qed.
Definition small (b : obox) : Prop :=
  Rabs (bx b) <= 10000000 /\ Rabs (by_ b) <= 10000000 /\ 0 <= blength b <= 10000000 /\ 0 <= bwidth b <= 10000000.
Lemma long_distance_bound e o : small e -> small o -> - 100000000 <= long_distance e o <= 100000000.
Proof.
  intros [E1 [E2 [E3 E4]]] [O1 [O2 [O3 O4]]]. apply Rabs_def2_le in E1, E2, O1, O2.
  assert (X : Rabs (bx o - bx e) <= 20000000) by (apply Rabs_le; lra).
  assert (Y : Rabs (by_ o - by_ e) <= 20000000) by (apply Rabs_le; lra).
  assert (F : - 40000000 <= fst (relative_xy e o) <= 40000000).
  { unfold relative_xy, rotate_2d, psub. cbn [fst snd].
    assert (A := mul_cos_bound (bx o - bx e) (- bheading e)). assert (B := mul_sin_bound (by_ o - by_ e) (- bheading e)).
    assert (A' := Rle_trans _ _ _ A X). assert (B' := Rle_trans _ _ _ B Y). apply Rabs_def2_le in A', B'. lra. }
  assert (L : 0 <= long_offset e o <= 10000000).
  { unfold long_offset. assert (A := COS_bound (yaw_diff e o)). assert (B := SIN_bound (yaw_diff e o)).
    assert (A' : 0 <= Rabs (cos (yaw_diff e o)) <= 1) by (split; [apply Rabs_pos|apply Rabs_le; lra]).
    assert (B' : 0 <= Rabs (sin (yaw_diff e o)) <= 1) by (split; [apply Rabs_pos|apply Rabs_le; lra]). nra. }
  unfold long_distance. lra.
Qed.
Lemma norm_bound x y : Rabs x <= 10000000 -> Rabs y <= 10000000 -> 0 <= norm (x, y) <= 20000000.
Proof.
  intros X Y. unfold norm, dot. cbn [fst snd]. split; [apply sqrt_pos|].
  replace 20000000 with (sqrt (20000000 * 20000000)) by (apply sqrt_square; lra). apply sqrt_le_1_alt.
  apply Rabs_def2_le in X, Y. nra.
Qed.
(** ** The first minimum *)
Lemma ahead_ok l a : ahead l = Ok a -> exists i, nth_error l i = Some a /\
  forall j x, nth_error l j = Some x -> fst a <= fst x /\ ((j < i)%nat -> fst a < fst x).
Proof.
  destruct l as [|b l]; [discriminate|]. cbn [ahead]. intros H. apply Ok_inj in H. subst a. revert b.
  assert (G : forall l b, let m := fold_left (fun best x : R * option R => if rltb (fst x) (fst best) then x else best) l b in
    exists i, nth_error (b :: l) i = Some m /\ forall j x, nth_error (b :: l) j = Some x -> fst m <= fst x /\ ((j < i)%nat -> fst m < fst x)).
  { induction l0 as [|y l0 IH]; intros b m; unfold m; cbn [fold_left].
    - exists 0%nat. split; [reflexivity|]. intros [|[|j]] x Hx; try discriminate. injection Hx as <-. split; [lra|lia].
    - destruct (rltb (fst y) (fst b)) eqn:E.
      + apply rltb_iff in E. destruct (IH y) as [i [Hi Hm]]. cbv zeta in Hm. exists (S i). split; [exact Hi|].
        intros [|j] x Hx; cbn [nth_error] in Hx.
        * injection Hx as <-. destruct (Hm 0%nat y eq_refl) as [Hy _]. split; intros; lra.
        * destruct (Hm j x Hx) as [H1 H2]. split; [assumption|]. intros L. apply H2. lia.
      + apply rltb_false in E. destruct (IH b) as [i [Hi Hm]]. cbv zeta in Hm. destruct (Hm 0%nat b eq_refl) as [Hb Hb'].
        destruct i as [|i].
        * exists 0%nat. split; [exact Hi|]. intros [|[|j]] x Hx; cbn [nth_error] in Hx; (split; [|lia]).
          -- injection Hx as <-. lra.
          -- injection Hx as <-. lra.
          -- now apply (Hm (S j)).
        * exists (S (S i)). split; [exact Hi|]. intros [|[|j]] x Hx; cbn [nth_error] in Hx.
          -- injection Hx as <-. split; [lra|]. intros _. apply Hb'. lia.
          -- injection Hx as <-. assert (fst (fold_left (fun best x : R * option R => if rltb (fst x) (fst best) then x else best) l0 b) < fst b) by (apply Hb'; lia). split; intros; lra.
          -- destruct (Hm (S j) x Hx) as [H1 H2]. split; [assumption|]. intros L. apply H2. lia. }
  intros b. apply G.
Qed.
(** ** The speeds *)
Lemma speeds_length dt row : length (speeds dt row) = Nat.max 2 (length row).
Proof. apply central_length. Qed.
Lemma norm_half a b x y : norm ((b - a) / 2, (y - x) / 2) = dist (a, x) (b, y) / 2.
Proof.
  unfold dist, norm, psub, dot. cbn [fst snd].
  replace ((b - a) / 2 * ((b - a) / 2) + (y - x) / 2 * ((y - x) / 2)) with (((a - b) ^ 2 + (x - y) ^ 2) * (/ 2 * / 2)) by field.
  assert (A := pow2_ge_0 (a - b)). assert (B := pow2_ge_0 (x - y)). rewrite sqrt_mult_alt by lra. rewrite sqrt_square by lra. reflexivity.
Qed.
Lemma speed_inner dt row u a b : nth_error row u = Some a -> nth_error row (S (S u)) = Some b ->
  nth_error (speeds dt row) (S u) = Some (Some (dist (bx (fst a), by_ (fst a)) (bx (fst b), by_ (fst b)) / 2 / dt)).
Proof.
  intros Ha Hb. unfold speeds. rewrite (central_inner _ _ _ _ _ _ Ha Hb). now rewrite norm_half.
Qed.
Lemma speed_outer dt row t : (2 <= length row)%nat -> t = 0%nat \/ S t = length row -> nth_error (speeds dt row) t = Some None.
Proof.
  intros L [-> |E]; unfold speeds; [apply central_first|]. rewrite <- (central_last (fun b a : cell =>
             Some (norm ((bx (fst b) - bx (fst a)) / 2, (by_ (fst b) - by_ (fst a)) / 2) / dt)) None row). f_equal. lia.
Qed.

(** ** The whole *)
Section Whole.
Variables (dt : R) (num_steps : nat) (objects : list (list cell)) (mask : list bool).
Hypothesis HL : length mask = length objects.
Hypothesis Hn : (2 <= num_steps)%nat.
Hypothesis Hrow : forall r, In r objects -> length r = num_steps.
Lemma step_total (r : list cell) t : In r objects -> (t < num_steps)%nat ->
  exists c w, nth_error r t = Some c /\ nth_error (speeds dt r) t = Some w.
Proof.
  intros Hr Ht. apply Hrow in Hr. destruct (nth_length r t ltac:(lia)) as [c Hc].
  destruct (nth_length (speeds dt r) t) as [w Hw]; [rewrite speeds_length; lia|]. exists c, w. auto.
Qed.
Lemma ttc_at_total row t : In row objects -> (t < num_steps)%nat -> exists d, ttc_at dt objects row t = Ok d.
Proof.
  intros Hr Ht. destruct (step_total row t Hr Ht) as [e [v [He Hv]]]. unfold ttc_at.
  rewrite (proj2 (step_of_ok t row e) He). cbn [bind]. rewrite (proj2 (step_of_ok t _ v) Hv). cbn [bind].
  destruct (mapM_total (fun r => do o <- step_of t r; do w <- step_of t (speeds dt r); Ok (masked_long_distance (fst e) o, w)) objects) as [l El].
  { intros r Hi. destruct (step_total r t Hi Ht) as [c [w [Hc Hw]]]. rewrite (proj2 (step_of_ok t r c) Hc). cbn [bind].
    rewrite (proj2 (step_of_ok t _ w) Hw). cbn [bind]. eauto. }
  rewrite El. cbn [bind]. destruct l as [|a l].
  - apply mapM_length in El. destruct objects; [destruct Hr|discriminate].
  - cbn [ahead bind]. eauto.
Qed.
Lemma whole_ok : exists out, compute_time_to_collision dt num_steps objects mask = Ok out /\
  length out = count_occ bool_dec mask true /\ forall r, In r out -> length r = num_steps.
Proof.
  unfold compute_time_to_collision. rewrite HL, Nat.eqb_refl. cbn [negb].
  replace (Nat.ltb num_steps 2) with false by (symmetry; apply Nat.ltb_ge; lia).
  destruct (mapM_total (fun row => mapM (ttc_at dt objects row) (seq 0 num_steps)) (select mask objects)) as [out E].
  { intros row Hi. apply mapM_total. intros t Ht. apply in_seq in Ht. apply ttc_at_total; [|lia].
    assert (P := select_perm mask objects HL). apply (Permutation.Permutation_in _ P). apply in_or_app. now left. }
  exists out. split; [assumption|]. split.
  - rewrite (mapM_length _ _ _ E). now apply select_length.
  - intros r Hr. destruct (mapM_of _ _ _ E r Hr) as [row [_ F]]. rewrite (mapM_length _ _ _ F). apply seq_length.
Qed.
Variable out : list (list R).
Hypothesis Hout : compute_time_to_collision dt num_steps objects mask = Ok out.
Lemma whole_at g t : nth_error mask g = Some true -> (t < num_steps)%nat ->
  exists row d, nth_error objects g = Some row /\ entry out (row_of mask g) t = Some d /\ ttc_at dt objects row t = Ok d.
Proof.
  intros Hg Ht. unfold compute_time_to_collision in Hout. rewrite HL, Nat.eqb_refl in Hout. cbn [negb] in Hout.
  replace (Nat.ltb num_steps 2) with false in Hout by (symmetry; apply Nat.ltb_ge; lia).
  destruct (nth_length objects g) as [row Er]; [rewrite <- HL; apply nth_error_Some; congruence|].
  assert (Hs := select_nth mask objects g row Hg Er). destruct (mapM_at _ _ _ Hout _ _ Hs) as [r [Hr Ef]].
  destruct (mapM_at _ _ _ Ef t t) as [d [Hd Ed]].
  { rewrite (nth_error_nth' _ 0%nat) by now rewrite seq_length. now rewrite seq_nth. }
  exists row, d. unfold entry. rewrite Hr. auto.
Qed.
Lemma at_step_of g row t : nth_error objects g = Some row -> at_step objects g t = nth_error row t.
Proof. intros H. unfold at_step. now rewrite H. Qed.
Lemma ttc_at_inv row t d : ttc_at dt objects row t = Ok d -> exists e v l a, nth_error row t = Some e /\ nth_error (speeds dt row) t = Some v /\
  length l = length objects /\ ahead l = Ok a /\ d = time_to_collision (fst a) v (snd a) /\
  forall g' r', nth_error objects g' = Some r' -> exists o w, nth_error r' t = Some o /\ nth_error (speeds dt r') t = Some w /\
    nth_error l g' = Some (masked_long_distance (fst e) o, w).
Proof.
  intros H. unfold ttc_at in H. dbind H e He. dbind H v Hv. dbind H l El. dbind H a Ea. apply Ok_inj in H.
  apply step_of_ok in He, Hv. exists e, v, l, a. split; [assumption|]. split; [assumption|]. split; [exact (mapM_length _ _ _ El)|].
  split; [assumption|]. split; [now symmetry|]. intros g' r' Hr'. destruct (mapM_at _ _ _ El _ _ Hr') as [x [Hx Ex]].
  dbind Ex o Eo. dbind Ex w Ew. apply Ok_inj in Ex. subst x. apply step_of_ok in Eo, Ew. exists o, w. auto.
Qed.
(** The first and the last step. *)
Lemma outer_steps g t : nth_error mask g = Some true -> t = 0%nat \/ S t = num_steps -> entry out (row_of mask g) t = Some 5.
Proof.
  intros Hg Ht. destruct (whole_at g t Hg ltac:(lia)) as [row [d [Er [Ed Et]]]]. rewrite Ed. f_equal.
  destruct (ttc_at_inv row t d Et) as [e [v [l [a [He [Hv [_ [_ [-> _]]]]]]]]].
  assert (LR : length row = num_steps) by (apply Hrow; now apply nth_error_In in Er).
  rewrite (speed_outer dt row t) in Hv by lia. injection Hv as <-. unfold time_to_collision, MAXIMUM_TIME_TO_COLLISION. reflexivity.
Qed.
Hypothesis Hdt : 1 / 10 <= dt.
Hypothesis Hb : bounded objects.
Lemma has_speed_iff g row u v : nth_error objects g = Some row -> (S (S u) < num_steps)%nat ->
  nth_error (speeds dt row) (S u) = Some (Some v) <-> has_speed dt objects g (S u) v.
Proof.
  intros Er Hu. assert (LR : length row = num_steps) by (apply Hrow; now apply nth_error_In in Er).
  destruct (nth_length row u ltac:(lia)) as [[a va] Ha]. destruct (nth_length row (S (S u)) ltac:(lia)) as [[b vb] Hb'].
  rewrite (speed_inner dt row u _ _ Ha Hb'). cbn [fst]. split.
  - intros H. injection H as H. exists u, a, b, va, vb. rewrite !(at_step_of g row) by assumption. split; [reflexivity|]. split; [assumption|].
    split; [assumption|]. now symmetry.
  - intros [u' [a' [b' [va' [vb' [E1 [E2 [E3 ->]]]]]]]]. injection E1 as <-. rewrite (at_step_of g row) in E2, E3 by assumption.
    rewrite Ha in E2. rewrite Hb' in E3. injection E2 as <- <-. injection E3 as <- <-. reflexivity.
Qed.
Lemma speed_size g t v : has_speed dt objects g t v -> 0 <= v <= 200000000.
Proof.
  intros [u [a [b [va [vb [-> [Ha [Hb' ->]]]]]]]]. apply Hb in Ha, Hb'. destruct Ha as [A1 [A2 _]]. destruct Hb' as [B1 [B2 _]].
  apply Rabs_def2_le in A1, A2, B1, B2. rewrite <- norm_half.
  assert (N := norm_bound ((bx b - bx a) / 2) ((by_ b - by_ a) / 2) ltac:(apply Rabs_le; lra) ltac:(apply Rabs_le; lra)).
  assert (P : 0 < / dt) by (apply Rinv_0_lt_compat; lra).
  assert (Q : / dt <= 10) by (replace 10 with (/ (1 / 10)) by field; apply Rinv_le_contravar; lra).
  unfold Rdiv at 1 3. nra.
Qed.
Section At.
Variables (g u : nat) (row : list cell) (e : obox) (ve : bool) (d : R).
Hypothesis Hg : nth_error mask g = Some true.
Hypothesis Hu : (S (S u) < num_steps)%nat.
Hypothesis Er : nth_error objects g = Some row.
Hypothesis He : at_step objects g (S u) = Some (e, ve).
Hypothesis We : 0 < bwidth e.
Lemma small_at g' t b v : at_step objects g' t = Some (b, v) -> small b. Proof. exact (Hb g' t b v). Qed.
Lemma followed_iff g' d' o v : at_step objects g' (S u) = Some (o, v) ->
  followed objects g (S u) g' d' <-> is_followed e (o, v) = true /\ d' = long_distance e o.
Proof.
  intros Ho. destruct (small_at _ _ _ _ Ho) as [_ [_ [L W]]]. unfold is_followed. cbn [fst snd]. rewrite andb_true_iff, following_iff by lra. split.
  - intros [e' [v' [o' [E1 [E2 [F D]]]]]]. rewrite He in E1. injection E1 as <- <-. rewrite Ho in E2. injection E2 as <- ->. split; [auto|].
    apply (distance_ahead_unique e o); [assumption|apply long_distance_ahead; lra].
  - intros [[-> F] ->]. exists e, ve, o. split; [assumption|]. split; [assumption|]. split; [assumption|]. apply long_distance_ahead; lra.
Qed.
Lemma masked_size g' o v : at_step objects g' (S u) = Some (o, v) ->
  (is_followed e (o, v) = true -> masked_long_distance e (o, v) = long_distance e o /\ long_distance e o <= 100000000) /\
  (is_followed e (o, v) = false -> 9000000000 <= masked_long_distance e (o, v)).
Proof.
  intros Ho. assert (A := long_distance_bound e o (small_at _ _ _ _ He) (small_at _ _ _ _ Ho)).
  unfold masked_long_distance, EXTREMELY_LARGE_DISTANCE. cbn [fst]. split; intros ->; lra.
Qed.
Lemma inner_step : entry out (row_of mask g) (S u) = Some d ->
  ((forall g' d', ~ followed objects g (S u) g' d') -> d = 5) /\
  (forall g' d' v w, nearest_followed objects g (S u) g' d' -> has_speed dt objects g (S u) v -> has_speed dt objects g' (S u) w ->
     (w < v -> d = Rmin (d' / (v - w)) 5) /\ (v <= w -> d = 5)).
Proof.
  intros Hd. destruct (whole_at g (S u) Hg ltac:(lia)) as [row' [d0 [Er' [Ed Et]]]]. rewrite Er in Er'. injection Er' as <-.
  rewrite Hd in Ed. injection Ed as <-.
  destruct (ttc_at_inv row (S u) d Et) as [e' [v [l [a [He' [Hv [Hl [Ha [Hdd Hall]]]]]]]]].
  rewrite (at_step_of g row) in He by assumption. rewrite He in He'. injection He' as <-. rewrite <- (at_step_of g row) in He by assumption. cbn [fst] in Hall.
  destruct (ahead_ok l a Ha) as [i [Hi Hmin]].
  destruct (nth_length objects i) as [ri Hri]; [rewrite <- Hl; apply nth_error_Some; congruence|].
  destruct (Hall i ri Hri) as [[oi vi] [wi [Hoi [Hwi Hli]]]]. rewrite Hi in Hli. injection Hli as ->.
  rewrite <- (at_step_of i ri) in Hoi by assumption. cbn [fst snd] in *.
  assert (LR : length row = num_steps) by (apply Hrow; now apply nth_error_In in Er).
  destruct v as [v|].
  2:{ exfalso. destruct (nth_length row u ltac:(lia)) as [x Hx]. destruct (nth_length row (S (S u)) ltac:(lia)) as [y Hy].
      rewrite (speed_inner dt row u _ _ Hx Hy) in Hv. discriminate. }
  destruct wi as [wi|].
  2:{ exfalso. assert (LRi : length ri = num_steps) by (apply Hrow; now apply nth_error_In in Hri).
      destruct (nth_length ri u ltac:(lia)) as [x Hx]. destruct (nth_length ri (S (S u)) ltac:(lia)) as [y Hy].
      rewrite (speed_inner dt ri u _ _ Hx Hy) in Hwi. discriminate. }
  apply (has_speed_iff g row u v Er Hu) in Hv. apply (has_speed_iff i ri u wi Hri Hu) in Hwi.
  destruct (masked_size i oi vi Hoi) as [M1 M2].
  unfold time_to_collision, MAXIMUM_TIME_TO_COLLISION in Hdd. split.
  - intros Hno. assert (Fi : is_followed e (oi, vi) = false).
    { destruct (is_followed e (oi, vi)) eqn:F; [|reflexivity]. exfalso. apply (Hno i (long_distance e oi)). now apply (followed_iff i _ oi vi). }
    apply M2 in Fi. destruct (rltb 0 (v - wi)) eqn:Ev; [|assumption]. apply rltb_iff in Ev. rewrite Hdd.
    assert (Sv := speed_size _ _ _ Hv). assert (Sw := speed_size _ _ _ Hwi). apply Rmin_right.
    apply Rmult_le_reg_r with (v - wi); [assumption|]. unfold Rdiv. rewrite Rmult_assoc, Rinv_l by lra. lra.
  - intros g' d' v' w [Hf Hnear] Hv' Hw'.
    assert (v' = v).
    { apply (has_speed_iff g row u _ Er Hu) in Hv'. apply (has_speed_iff g row u _ Er Hu) in Hv. congruence. }
    subst v'.
    assert (exists r', nth_error objects g' = Some r') as [r' Hr'].
    { destruct Hf as [x [y [z [_ [K _]]]]]. unfold at_step in K. destruct (nth_error objects g'); [eauto|discriminate]. }
    destruct (Hall g' r' Hr') as [[o' vo'] [w' [Ho' [_ Hl']]]]. rewrite <- (at_step_of g' r') in Ho' by assumption.
    destruct (masked_size g' o' vo' Ho') as [N1 _]. apply (followed_iff g' d' o' vo' Ho') in Hf. destruct Hf as [F' ->].
    destruct (N1 F') as [N2 N3]. destruct (Hmin _ _ Hl') as [Hle Hlt]. cbn [fst] in Hle, Hlt.
    destruct (is_followed e (oi, vi)) eqn:Fi; [|specialize (M2 eq_refl); lra].
    destruct (M1 eq_refl) as [M3 _]. destruct (Hnear i (long_distance e oi)) as [K|[K1 K2]].
    { now apply (followed_iff i _ oi vi). }
    { lra. }
    assert (i = g').
    { destruct (Nat.lt_trichotomy g' i) as [L|[L|L]]; [specialize (Hlt L); lra|now symmetry|lia]. }
    subst i. rewrite Hri in Hr'. injection Hr' as <-. rewrite Hoi in Ho'. injection Ho' as <- <-.
    assert (wi = w).
    { apply (has_speed_iff g' ri u _ Hri Hu) in Hwi. apply (has_speed_iff g' ri u _ Hri Hu) in Hw'. congruence. }
    subst wi. rewrite M3 in Hdd. split.
    + intros L. rewrite (proj2 (rltb_iff _ _)) in Hdd by lra. exact Hdd.
    + intros L. rewrite (proj2 (rltb_false _ _)) in Hdd by lra. exact Hdd.
Qed.
Lemma nearest_or_none : (forall g' d', ~ followed objects g (S u) g' d') \/ exists g' d', nearest_followed objects g (S u) g' d'.
Proof.
  destruct (whole_at g (S u) Hg ltac:(lia)) as [row' [d0 [Er' [_ Et]]]]. rewrite Er in Er'. injection Er' as <-.
  destruct (ttc_at_inv row (S u) d0 Et) as [e' [v [l [a [He' [_ [Hl [Ha [_ Hall]]]]]]]]].
  rewrite (at_step_of g row) in He by assumption. rewrite He in He'. injection He' as <-. rewrite <- (at_step_of g row) in He by assumption. cbn [fst] in Hall.
  destruct (ahead_ok l a Ha) as [i [Hi Hmin]].
  destruct (nth_length objects i) as [ri Hri]; [rewrite <- Hl; apply nth_error_Some; congruence|].
  destruct (Hall i ri Hri) as [[oi vi] [wi [Hoi [_ Hli]]]]. rewrite Hi in Hli. injection Hli as ->.
  rewrite <- (at_step_of i ri) in Hoi by assumption. cbn [fst snd] in *.
  destruct (masked_size i oi vi Hoi) as [M1 M2].
  assert (K : forall g' d', followed objects g (S u) g' d' -> exists w, nth_error l g' = Some (d', w) /\ d' <= 100000000).
  { intros g' d' Hf. assert (exists r', nth_error objects g' = Some r') as [r' Hr'].
    { destruct Hf as [x [y [z [_ [K _]]]]]. unfold at_step in K. destruct (nth_error objects g'); [eauto|discriminate]. }
    destruct (Hall g' r' Hr') as [[o' vo'] [w' [Ho' [_ Hl']]]]. rewrite <- (at_step_of g' r') in Ho' by assumption.
    destruct (masked_size g' o' vo' Ho') as [N1 _]. apply (followed_iff g' d' o' vo' Ho') in Hf. destruct Hf as [F' ->].
    destruct (N1 F') as [N2 N3]. exists w'. rewrite N2 in Hl'. auto. }
  destruct (is_followed e (oi, vi)) eqn:Fi.
  - right. exists i, (long_distance e oi). destruct (M1 eq_refl) as [M3 _]. split; [now apply (followed_iff i _ oi vi)|].
    intros g2 d2 F2. destruct (K g2 d2 F2) as [w2 [H2 _]]. destruct (Hmin _ _ H2) as [A B]. cbn [fst] in A, B. rewrite M3 in A, B.
    destruct (Nat.lt_ge_cases g2 i) as [L|L]; [left; auto|]. destruct A as [A|A]; [now left|right; auto].
  - left. intros g' d' Hf. destruct (K g' d' Hf) as [w [H2 Hd]]. destruct (Hmin _ _ H2) as [A _]. cbn [fst] in A. specialize (M2 eq_refl). lra.
Qed.
End At.
Lemma speed_exists g u : (g < length objects)%nat -> (S (S u) < num_steps)%nat -> exists v, has_speed dt objects g (S u) v.
Proof.
  intros Hg Hu. destruct (nth_length objects g Hg) as [row Er].
  assert (LR : length row = num_steps) by (apply Hrow; now apply nth_error_In in Er).
  destruct (nth_length row u ltac:(lia)) as [x Hx]. destruct (nth_length row (S (S u)) ltac:(lia)) as [y Hy].
  eexists. apply (has_speed_iff g row u _ Er Hu). apply (speed_inner dt row u _ _ Hx Hy).
Qed.
Lemma inner_all g u e ve : nth_error mask g = Some true -> (S (S u) < num_steps)%nat -> at_step objects g (S u) = Some (e, ve) -> 0 < bwidth e ->
  exists d, entry out (row_of mask g) (S u) = Some d /\
    (((forall g' d', ~ followed objects g (S u) g' d') /\ d = 5) \/
     exists g' d' v w, nearest_followed objects g (S u) g' d' /\ has_speed dt objects g (S u) v /\ has_speed dt objects g' (S u) w /\
       (w < v -> d = Rmin (d' / (v - w)) 5) /\ (v <= w -> d = 5)).
Proof.
  intros Hg Hu He We. destruct (whole_at g (S u) Hg ltac:(lia)) as [row [d [Er [Ed _]]]]. exists d. split; [assumption|].
  destruct (inner_step g u row e ve d Hg Hu Er He We Ed) as [A B].
  destruct (nearest_or_none g u row e ve Hg Hu Er He We) as [N|[g' [d' N]]]; [left; auto|right].
  assert (Lg : (g < length objects)%nat) by (apply nth_error_Some; congruence).
  assert (Lg' : (g' < length objects)%nat).
  { destruct N as [[x [y [z [_ [K _]]]]] _]. unfold at_step in K. apply nth_error_Some. destruct (nth_error objects g'); [discriminate|congruence]. }
  destruct (speed_exists g u Lg Hu) as [v Hv]. destruct (speed_exists g' u Lg' Hu) as [w Hw]. exists g', d', v, w. split; [assumption|].
  split; [assumption|]. split; [assumption|]. now apply (B g').
Qed.
Lemma not_itself g t d : ~ followed objects g t g d.
Proof.
  intros [e [v [o [E1 [E2 [F _]]]]]]. rewrite E1 in E2. injection E2 as <- ->. destruct (Hb _ _ _ _ E1) as [_ [_ [L W]]].
  revert F. apply follows_irrefl; lra.
Qed.
End Whole.
Lemma short_error dt num_steps objects mask : length mask = length objects -> (num_steps < 2)%nat ->
  compute_time_to_collision dt num_steps objects mask = Err ValueError.
Proof.
  intros HL Hn. unfold compute_time_to_collision. rewrite HL, Nat.eqb_refl. cbn [negb].
  now replace (Nat.ltb num_steps 2) with true by (symmetry; apply Nat.ltb_lt; lia).
Qed.
