(** Reordering the people of a frame and the error added by it. *)
From Coq Require Import Reals Lra List Arith Lia Bool ZArith Permutation.
From Verif Require Import Base ResultLib GeomModel GeomBase PoseModel PoseSpec.
Import ListNotations.
Open Scope R_scope.

Lemma sum_app {A} (f : A -> R) l m : sum_of f (l ++ m) = sum_of f l + sum_of f m.
Proof. induction l as [|a l IH]; cbn [app sum_of fold_right]; [unfold sum_of; lra|]. fold (sum_of f (l ++ m)) (sum_of f l). rewrite IH. lra. Qed.
Lemma sum_cons {A} (f : A -> R) a l : sum_of f (a :: l) = f a + sum_of f l. Proof. reflexivity. Qed.
Lemma sum_map {A B} (f : B -> R) (g : A -> B) l : sum_of f (map g l) = sum_of (fun a => f (g a)) l.
Proof. induction l as [|a l IH]; auto. cbn [map]. rewrite !sum_cons, IH. reflexivity. Qed.
Lemma sum_ext {A} (f g : A -> R) l : (forall a, In a l -> f a = g a) -> sum_of f l = sum_of g l.
Proof.
  induction l as [|a l IH]; intros H; auto. rewrite !sum_cons. rewrite (H a (or_introl eq_refl)), IH; auto.
  intros b B. apply H. now right.
Qed.
Lemma sum_filter {A} (f : A -> R) (p : A -> bool) l : sum_of f (filter p l) = sum_of (fun a => if p a then f a else 0) l.
Proof. induction l as [|a l IH]; auto. cbn [filter]. destruct (p a) eqn:E; rewrite ?sum_cons, IH, ?sum_cons, ?E; lra. Qed.
Lemma sum_scale {A} (f : A -> R) c l : sum_of (fun a => c * f a) l = c * sum_of f l.
Proof. induction l as [|a l IH]; [unfold sum_of; cbn; lra|]. rewrite !sum_cons, IH. lra. Qed.
Lemma sum_zero {A} (f : A -> R) l : (forall a, In a l -> f a = 0) -> sum_of f l = 0.
Proof. induction l as [|a l IH]; intros H; auto. rewrite sum_cons, (H a (or_introl eq_refl)), IH; [lra|]. intros b B. apply H. now right. Qed.
Lemma sum_nonneg {A} (f : A -> R) l : (forall a, In a l -> 0 <= f a) -> 0 <= sum_of f l.
Proof.
  induction l as [|a l IH]; intros H; [unfold sum_of; cbn; lra|]. rewrite sum_cons. pose proof (H a (or_introl eq_refl)).
  assert (0 <= sum_of f l) by (apply IH; intros b B; apply H; now right). lra.
Qed.
Lemma sum_le {A} (f g : A -> R) l : (forall a, In a l -> f a <= g a) -> sum_of f l <= sum_of g l.
Proof.
  induction l as [|a l IH]; intros H; [unfold sum_of; cbn; lra|]. rewrite !sum_cons. pose proof (H a (or_introl eq_refl)).
  assert (sum_of f l <= sum_of g l) by (apply IH; intros b B; apply H; now right). lra.
Qed.
Lemma rsum_map {A} (f : A -> R) l : rsum (map f l) = sum_of f l.
Proof. induction l as [|a l IH]; auto. cbn [map rsum fold_right]. unfold rsum in IH. rewrite IH. reflexivity. Qed.
Lemma rsum_concat {A B} (f : B -> R) (g : A -> list B) l : rsum (map f (concat (map g l))) = sum_of (fun a => rsum (map f (g a))) l.
Proof.
  induction l as [|a l IH]; auto. cbn [map concat]. rewrite sum_cons, <- IH. rewrite !rsum_map. apply sum_app.
Qed.

(** ** Gathering rows *)
Lemma gather_ok {A} (t : list A) d ids : (forall i, In i ids -> (i < length t)%nat) -> gather t ids = Ok (map (fun i => nth i t d) ids).
Proof.
  intros H. unfold gather. apply mapM_ok. intros i I. rewrite (nth_error_nth' t d) by auto. reflexivity.
Qed.
Lemma has_visible_shows o : has_visible o = shows o. Proof. reflexivity. Qed.
Lemma nth_map_vis l i : nth i (map has_visible l) true = (if Nat.ltb i (length l) then shows (person_at l i) else true).
Proof.
  unfold person_at. revert i. induction l as [|a l IH]; intros [|i]; cbn [map nth length]; auto. rewrite IH. reflexivity.
Qed.
Lemma select_ok ids (gt : list (list keypoint)) : (forall m, In m ids -> (fst m < length gt)%nat) ->
  select_ids ids (map has_visible gt) = Ok (filter (fun m => shows (person_at gt (fst m))) ids).
Proof.
  intros H. unfold select_ids. rewrite (gather_ok _ true) by (intros i I; rewrite map_length; apply in_map_iff in I; destruct I as (m & <- & I); auto).
  cbn [bind]. f_equal. induction ids as [|m ids IH]; auto.
  cbn [map combine filter snd]. rewrite nth_map_vis. pose proof (H m (or_introl eq_refl)) as L. apply Nat.ltb_lt in L. rewrite L.
  assert (E := IH (fun m' I => H m' (or_intror I))).
  destruct (shows (person_at gt (fst m))); cbn [map fst]; now rewrite E.
Qed.
Lemma not_shown (l : list (list keypoint)) i : In i (indices_of_false (map has_visible l)) <-> (i < length l)%nat /\ shows (person_at l i) = false.
Proof.
  unfold indices_of_false. rewrite filter_In, in_seq, map_length, nth_map_vis. split.
  - intros [L E]. assert (L' : (i < length l)%nat) by lia. split; auto. apply Nat.ltb_lt in L'. rewrite L' in E. now destruct (shows _).
  - intros [L E]. split; [lia|]. apply Nat.ltb_lt in L. rewrite L, E. reflexivity.
Qed.
Lemma existsb_eqb i l : existsb (Nat.eqb i) l = true <-> In i l.
Proof. rewrite existsb_exists. split; [intros (x & I & E); apply Nat.eqb_eq in E; now subst | intros I; exists i; split; auto; apply Nat.eqb_refl]. Qed.
Lemma missing_ok used (l : list (list keypoint)) : (forall i, In i used -> (i < length l)%nat) ->
  missing_ids (used ++ indices_of_false (map has_visible l)) (length l) =
  Ok (filter (fun i => shows (person_at l i)) (unmatched used (length l))).
Proof.
  intros H. unfold missing_ids. destruct (existsb (fun i => Nat.leb (length l) i) _) eqn:E.
  - exfalso. apply existsb_exists in E. destruct E as (i & I & E). apply Nat.leb_le in E. apply in_app_or in I.
    destruct I as [I|I]; [apply H in I; lia | apply not_shown in I; lia].
  - f_equal. unfold unmatched. assert (D : forall s, (forall i, In i s -> (i < length l)%nat) ->
      filter (fun i => negb (existsb (Nat.eqb i) (used ++ indices_of_false (map has_visible l)))) s =
      filter (fun i => shows (person_at l i)) (filter (fun i => negb (existsb (Nat.eqb i) used)) s)).
    { induction s as [|i s IH]; intros L; auto. cbn [filter]. rewrite existsb_app.
      assert (IH' := IH (fun k K => L k (or_intror K))). pose proof (L i (or_introl eq_refl)) as Li.
      destruct (existsb (Nat.eqb i) used) eqn:U; cbn [orb negb]; auto.
      cbn [filter]. destruct (shows (person_at l i)) eqn:S.
      - destruct (existsb (Nat.eqb i) (indices_of_false (map has_visible l))) eqn:F; cbn [negb]; [|now f_equal].
        apply existsb_eqb in F. apply not_shown in F. destruct F as [_ F]. congruence.
      - assert (F : existsb (Nat.eqb i) (indices_of_false (map has_visible l)) = true) by (apply existsb_eqb, not_shown; auto).
        rewrite F. cbn [negb]. auto. }
    apply D. intros i I. apply in_seq in I. lia.
Qed.
Lemma unmatched_In used n i : In i (unmatched used n) <-> (i < n)%nat /\ ~ In i used.
Proof.
  unfold unmatched. rewrite filter_In, in_seq, negb_true_iff. rewrite <- not_true_iff_false, existsb_eqb. intuition lia.
Qed.
Lemma combine_app {A B} (a a' : list A) (b b' : list B) : length a = length b -> combine (a ++ a') (b ++ b') = combine a b ++ combine a' b'.
Proof. revert b. induction a as [|x a IH]; intros [|y b] L; cbn in L; try discriminate; auto. cbn [app combine]. now rewrite IH by lia. Qed.
Lemma combine_map2 {A B C} (f : A -> B) (g : A -> C) l : combine (map f l) (map g l) = map (fun a => (f a, g a)) l.
Proof. induction l as [|a l IH]; auto. cbn [map combine]. now rewrite IH. Qed.
Lemma repeat_map {A B} (x : B) (l : list A) : repeat x (length l) = map (fun _ => x) l.
Proof. induction l as [|a l IH]; auto. cbn. now rewrite IH. Qed.

Theorem reorder_rows n gt pr M : matching M (length gt) (length pr) ->
  exists g p, reorder n gt pr M = Ok (g, p) /\ length g = length p /\
    combine g p =
      map (fun m => (person_at gt (fst m), person_at pr (snd m))) (filter (fun m => shows (person_at gt (fst m))) M) ++
      map (fun i => (person_at gt i, no_person n)) (filter (fun i => shows (person_at gt i)) (unmatched (map fst M) (length gt))) ++
      map (fun j => (no_person n, person_at pr j)) (filter (fun j => shows (person_at pr j)) (unmatched (map snd M) (length pr))).
Proof.
  intros (N1 & N2 & L). unfold reorder.
  rewrite select_ok by (intros m I; now apply L). cbn [bind].
  rewrite missing_ok by (intros i I; apply in_map_iff in I; destruct I as (m & <- & I); now apply L). cbn [bind].
  rewrite missing_ok by (intros i I; apply in_map_iff in I; destruct I as (m & <- & I); now apply L). cbn [bind].
  set (V := filter (fun m => shows (person_at gt (fst m))) M).
  set (F := filter (fun i => shows (person_at gt i)) (unmatched (map fst M) (length gt))).
  set (P := filter (fun j => shows (person_at pr j)) (unmatched (map snd M) (length pr))).
  assert (LV : forall m, In m V -> (fst m < length gt)%nat /\ (snd m < length pr)%nat) by (intros m I; apply filter_In in I; now apply L).
  rewrite (gather_ok gt []) by (intros i I; apply in_map_iff in I; destruct I as (m & <- & I); now apply LV). cbn [bind].
  rewrite (gather_ok gt []) by (intros i I; apply filter_In in I; destruct I as [I _]; now apply unmatched_In in I). cbn [bind].
  rewrite (gather_ok pr []) by (intros i I; apply in_map_iff in I; destruct I as (m & <- & I); now apply LV). cbn [bind].
  rewrite (gather_ok pr []) by (intros i I; apply filter_In in I; destruct I as [I _]; now apply unmatched_In in I). cbn [bind].
  eexists _, _. split; [reflexivity|]. split.
  - rewrite !app_length, !repeat_length, !map_length. reflexivity.
  - rewrite !repeat_map. rewrite !combine_app by (now rewrite !map_length). rewrite !map_map, !combine_map2. reflexivity.
Qed.

(** ** The errors *)
Lemma vis_eq k : is_fully_visible k = visible k. Proof. reflexivity. Qed.
Lemma vnorm_nonneg v : 0 <= vnorm v. Proof. apply sqrt_pos. Qed.
Lemma vnorm_dist a b : vnorm (vsub a b) = dist3 a b. Proof. reflexivity. Qed.
Lemma dist3_nonneg a b : 0 <= dist3 a b. Proof. apply sqrt_pos. Qed.
Lemma point_error_value penalty g p : 0 <= penalty ->
  point_error penalty g p = (error penalty g p, visible g || visible p).
Proof.
  intros H. unfold point_error, error. rewrite (vis_eq g), (vis_eq p), vnorm_dist. change (location g) with (place g). change (location p) with (place p).
  pose proof (dist3_nonneg (place g) (place p)) as D.
  assert (E : clip 0 penalty (dist3 (place g) (place p)) = Rmin (dist3 (place g) (place p)) penalty).
  { unfold clip. apply Rmax_left. now apply Rmin_glb. }
  rewrite E. destruct (visible g), (visible p); reflexivity.
Qed.
Lemma errors_value penalty g p : 0 <= penalty ->
  rsum (map (fun e : R * bool => fst e * (if snd e then 1 else 0)) (person_errors penalty g p)) = pair_error penalty g p /\
  rsum (map (fun e : R * bool => if snd e then 1 else 0) (person_errors penalty g p)) = pair_points g p /\
  rsum (map fst (person_errors penalty g p)) = pair_error penalty g p.
Proof.
  intros H. unfold person_errors, pair_error, pair_points. rewrite !map_map, !rsum_map.
  repeat split; apply sum_ext; intros [a b] _; cbn [fst snd]; rewrite point_error_value by auto; cbn [fst snd]; auto.
  unfold error. destruct (visible a), (visible b); cbn [orb]; lra.
Qed.
Lemma combine_repeat_r {A B} (a : list A) (x : B) : combine a (repeat x (length a)) = map (fun k => (k, x)) a.
Proof. induction a as [|k a IH]; auto. cbn. now rewrite IH. Qed.
Lemma combine_repeat_l {A B} (a : list A) (x : B) : combine (repeat x (length a)) a = map (fun k => (x, k)) a.
Proof. induction a as [|k a IH]; auto. cbn. now rewrite IH. Qed.
Lemma alone_g n penalty g : length g = n -> pair_error penalty g (no_person n) = penalty * visible_points g /\ pair_points g (no_person n) = visible_points g.
Proof.
  intros <-. unfold pair_error, pair_points, visible_points, no_person. rewrite combine_repeat_r, !sum_map, <- sum_scale.
  split; apply sum_ext; intros k _; cbn [fst snd]; unfold error; change (visible no_keypoint) with false; destruct (visible k); cbn [orb]; lra.
Qed.
Lemma alone_p n penalty p : length p = n -> pair_error penalty (no_person n) p = penalty * visible_points p /\ pair_points (no_person n) p = visible_points p.
Proof.
  intros <-. unfold pair_error, pair_points, visible_points, no_person. rewrite combine_repeat_l, !sum_map, <- sum_scale.
  split; apply sum_ext; intros k _; cbn [fst snd]; unfold error; change (visible no_keypoint) with false; destruct (visible k); cbn [orb]; lra.
Qed.
Lemma hidden_points o : shows o = false -> visible_points o = 0.
Proof.
  intros H. apply sum_zero. intros k I. destruct (visible k) eqn:E; auto.
  exfalso. assert (shows o = true) by (apply existsb_exists; eauto). congruence.
Qed.
Lemma rect_at n l i : rectangular n l -> (i < length l)%nat -> length (person_at l i) = n.
Proof. intros H L. apply H. now apply nth_In. Qed.

Theorem frame_value n penalty s gt pr M : 0 <= penalty -> rectangular n gt -> rectangular n pr -> matching M (length gt) (length pr) ->
  exists g p, reorder n gt pr M = Ok (g, p) /\
    pem_update penalty s g p = Ok (fst s + frame_error penalty gt pr M, snd s + frame_points gt pr M).
Proof.
  intros H RG RP HM. destruct (reorder_rows n gt pr M HM) as (g & p & E & L & C). exists g, p. split; [exact E|].
  unfold pem_update. rewrite L, Nat.eqb_refl. cbn [negb]. rewrite !rsum_concat. rewrite C. rewrite !sum_app, !sum_map, !sum_filter. cbn [fst snd].
  unfold frame_error, frame_points. destruct HM as (N1 & N2 & B).
  f_equal. rewrite <- !sum_scale, !Rplus_assoc. apply pair_equal_spec. split; f_equal; f_equal.
  - apply sum_ext. intros m _. destruct (shows _); auto. now apply errors_value.
  - f_equal; apply sum_ext; intros i I; apply unmatched_In in I; destruct I as [I _].
    + destruct (shows (person_at gt i)) eqn:S.
      * destruct (errors_value penalty (person_at gt i) (no_person n) H) as (-> & _). now apply alone_g, rect_at.
      * rewrite (hidden_points _ S). lra.
    + destruct (shows (person_at pr i)) eqn:S.
      * destruct (errors_value penalty (no_person n) (person_at pr i) H) as (-> & _). now apply alone_p, rect_at.
      * rewrite (hidden_points _ S). lra.
  - apply sum_ext. intros m _. destruct (shows _); auto. now apply errors_value.
  - f_equal; apply sum_ext; intros i I; apply unmatched_In in I; destruct I as [I _].
    + destruct (shows (person_at gt i)) eqn:S.
      * destruct (errors_value penalty (person_at gt i) (no_person n) H) as (_ & -> & _). now apply (alone_g n penalty), rect_at.
      * rewrite (hidden_points _ S). lra.
    + destruct (shows (person_at pr i)) eqn:S.
      * destruct (errors_value penalty (no_person n) (person_at pr i) H) as (_ & -> & _). now apply (alone_p n penalty), rect_at.
      * rewrite (hidden_points _ S). lra.
Qed.
