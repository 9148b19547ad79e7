(** Where segments meet. *)
From Coq Require Import Reals Lra Lia Psatz.
From Verif Require Import Base GeomModel GeomSpec GeomBase FrameModel LineModel LineSpec LineProofs.
Open Scope R_scope.

Lemma Rabs_zero_lt x e : 0 < e -> e <= Rabs x -> x <> 0.
Proof. intros E H ->. rewrite Rabs_R0 in H. lra. Qed.
Lemma spread_cross s o : cross (psub (end_ s) (start_ s)) (psub (end_ o) (start_ o)) = spread s o.
Proof. reflexivity. Qed.
Lemma dist_le_sqr a b e : 0 <= e -> (dist a b <= e <-> distance_sqr a b <= e * e).
Proof. intros E. rewrite distance_sqr_dist. pose proof (dist_nonneg a b). split; nra. Qed.
Lemma dist_lt_sqr a b e : 0 <= e -> (dist a b < e <-> distance_sqr a b < e * e).
Proof. intros E. rewrite distance_sqr_dist. pose proof (dist_nonneg a b). split; nra. Qed.
Lemma dist_between a b t u : dist (between a b t) (between a b u) = Rabs (t - u) * dist a b.
Proof.
  rewrite !dist_norm. apply norm_unique.
  - apply Rmult_le_pos; [apply Rabs_pos|apply norm_nonneg].
  - replace (Rabs (t - u) * norm (psub a b) * (Rabs (t - u) * norm (psub a b))) with ((Rabs (t - u) * Rabs (t - u)) * (norm (psub a b) * norm (psub a b))) by ring.
    rewrite norm_sqr. replace (Rabs (t - u) * Rabs (t - u)) with ((t - u) * (t - u)) by (unfold Rabs; destruct (Rcase_abs _); ring). flat. ring.
Qed.
(** A point of the line is close to the segment exactly if it is on it or close to the end it is beyond. *)
Lemma near_line s t e : 0 <= e ->
  (near e s (between (start_ s) (end_ s) t) <->
   (t < 0 -> dist (start_ s) (between (start_ s) (end_ s) t) <= e) /\ (1 < t -> dist (end_ s) (between (start_ s) (end_ s) t) <= e)).
Proof.
  intros E. set (a := start_ s). set (b := end_ s). pose proof (dist_nonneg a b) as D.
  assert (D0 : dist a (between a b t) = Rabs t * dist a b).
  { rewrite <- (between_0 a b) at 1. rewrite dist_between, Rabs_minus_sym. f_equal. f_equal. ring. }
  assert (D1 : dist b (between a b t) = Rabs (t - 1) * dist a b).
  { rewrite <- (between_1 a b) at 1. rewrite dist_between, Rabs_minus_sym. reflexivity. }
  rewrite D0, D1. split.
  - intros (y & (u & U & ->) & N). fold a b in N. rewrite dist_between in N. split; intros T.
    + assert (Rabs t <= Rabs (t - u)) by (rewrite !Rabs_left by lra; lra). nra.
    + assert (Rabs (t - 1) <= Rabs (t - u)) by (rewrite !Rabs_right by lra; lra). nra.
  - intros [A B]. destruct (Rlt_dec t 0) as [T|T]; [|destruct (Rlt_dec 1 t) as [T'|T']].
    + exists a. split; [apply on_segment_l|]. rewrite dist_sym, D0. auto.
    + exists b. split; [apply on_segment_r|]. rewrite dist_sym, D1. auto.
    + exists (between a b t). split; [exists t; split; [lra|reflexivity]|]. rewrite (proj2 (dist_zero _ _) eq_refl). exact E.
Qed.
(** The lines of segments that are not parallel have one point in common. *)
Lemma lines_meet s o : spread s o <> 0 ->
  let t := cross (psub (end_ o) (start_ o)) (psub (start_ s) (start_ o)) / spread s o in
  let u := cross (psub (end_ s) (start_ s)) (psub (start_ s) (start_ o)) / spread s o in
  between (start_ s) (end_ s) t = between (start_ o) (end_ o) u /\
  forall t' u', between (start_ s) (end_ s) t' = between (start_ o) (end_ o) u' -> t' = t /\ u' = u.
Proof.
  intros N t u. destruct s as [[a1 a2] [b1 b2] hs ls is], o as [[c1 c2] [d1 d2] ho lo io]. unfold t, u in *. clear t u. unfold spread in *. cbn [start_ end_] in *. flat. split.
  - f_equal; field; exact N.
  - intros t' u' E. apply pair_equal_spec in E. destruct E as [E1 E2]. split; apply (Rmult_eq_reg_r ((b1 - a1) * (d2 - c2) - (b2 - a2) * (d1 - c1))); try exact N; unfold spread; cbn [start_ end_ fst snd].
    + replace (((d1 - c1) * (a2 - c2) - (d2 - c2) * (a1 - c1)) / ((b1 - a1) * (d2 - c2) - (b2 - a2) * (d1 - c1)) * ((b1 - a1) * (d2 - c2) - (b2 - a2) * (d1 - c1)))
        with ((d1 - c1) * (a2 - c2) - (d2 - c2) * (a1 - c1)) by (field; exact N).
      assert (F1 : t' * (b1 - a1) = c1 + u' * (d1 - c1) - a1) by lra. assert (F2 : t' * (b2 - a2) = c2 + u' * (d2 - c2) - a2) by lra.
      replace (t' * ((b1 - a1) * (d2 - c2) - (b2 - a2) * (d1 - c1))) with ((t' * (b1 - a1)) * (d2 - c2) - (t' * (b2 - a2)) * (d1 - c1)) by ring. rewrite F1, F2. ring.
    + replace (((b1 - a1) * (a2 - c2) - (b2 - a2) * (a1 - c1)) / ((b1 - a1) * (d2 - c2) - (b2 - a2) * (d1 - c1)) * ((b1 - a1) * (d2 - c2) - (b2 - a2) * (d1 - c1)))
        with ((b1 - a1) * (a2 - c2) - (b2 - a2) * (a1 - c1)) by (field; exact N).
      assert (F1 : u' * (d1 - c1) = a1 + t' * (b1 - a1) - c1) by lra. assert (F2 : u' * (d2 - c2) = a2 + t' * (b2 - a2) - c2) by lra.
      replace (u' * ((b1 - a1) * (d2 - c2) - (b2 - a2) * (d1 - c1))) with ((b1 - a1) * (u' * (d2 - c2)) - (b2 - a2) * (u' * (d1 - c1))) by ring. rewrite F1, F2. ring.
Qed.
Definition on_line (s : seg) (p : point) : Prop := exists t, p = between (start_ s) (end_ s) t.
Lemma crossing_exact s o p : spread s o <> 0 ->
  (crossing s o (spread s o) = Some p <-> on_line s p /\ on_line o p /\ near eps s p /\ near eps o p).
Proof.
  intros N. destruct (lines_meet s o N) as [M U]. unfold crossing. rewrite between_eq.
  set (t := cross (psub (end_ o) (start_ o)) (psub (start_ s) (start_ o)) / spread s o) in *.
  set (u := cross (psub (end_ s) (start_ s)) (psub (start_ s) (start_ o)) / spread s o) in *.
  pose proof eps_pos as E. rewrite eps_eq in *. assert (E0 : 0 <= eps) by lra.
  set (q := between (start_ s) (end_ s) t) in *.
  assert (Cond : (rltb t 0 && rltb (eps * eps) (distance_sqr (start_ s) q) || rltb 1 t && rltb (eps * eps) (distance_sqr (end_ s) q) ||
     rltb u 0 && rltb (eps * eps) (distance_sqr (start_ o) q) || rltb 1 u && rltb (eps * eps) (distance_sqr (end_ o) q) = false)
     <-> near eps s q /\ near eps o q).
  { rewrite !orb_false_iff, !andb_false_iff, !rltb_false, <- !dist_le_sqr by exact E0.
    assert (Ns : near eps s q <-> (t < 0 -> dist (start_ s) q <= eps) /\ (1 < t -> dist (end_ s) q <= eps)) by (now apply near_line).
    assert (No : near eps o q <-> (u < 0 -> dist (start_ o) q <= eps) /\ (1 < u -> dist (end_ o) q <= eps)) by (rewrite M; now apply near_line).
    rewrite Ns, No.
    split.
    - intros [[[A B] C] D]. repeat split; intros T; lra.
    - intros [[A B] [C D]]. repeat split.
      + destruct (Rlt_dec t 0); [right; auto|left; lra].
      + destruct (Rlt_dec 1 t); [right; auto|left; lra].
      + destruct (Rlt_dec u 0); [right; auto|left; lra].
      + destruct (Rlt_dec 1 u); [right; auto|left; lra]. }
  destruct (rltb t 0 && rltb (eps * eps) (distance_sqr (start_ s) q) || rltb 1 t && rltb (eps * eps) (distance_sqr (end_ s) q) ||
     rltb u 0 && rltb (eps * eps) (distance_sqr (start_ o) q) || rltb 1 u && rltb (eps * eps) (distance_sqr (end_ o) q)) eqn:G.
  - split; [discriminate|]. intros ((t' & Et) & (u' & Eu) & A & B). exfalso.
    assert (Eq : between (start_ s) (end_ s) t' = between (start_ o) (end_ o) u') by congruence. destruct (U _ _ Eq) as [-> ->].
    fold q in Et. subst p. assert (true = false) by (apply Cond; auto). discriminate.
  - destruct (proj1 Cond eq_refl) as [A B]. split.
    + intros H. injection H as <-. split; [now exists t|]. split; [exists u; exact M|]. split; assumption.
    + intros ((t' & Et) & (u' & Eu) & _). assert (Eq : between (start_ s) (end_ s) t' = between (start_ o) (end_ o) u') by congruence.
      destruct (U _ _ Eq) as [-> ->]. fold q in Et. now subst p.
Qed.
Theorem intersect_exact : forall s o p,
  intersect s o = Some p <-> eps <= Rabs (spread s o) /\
    (exists t, p = between (start_ s) (end_ s) t) /\ (exists u, p = between (start_ o) (end_ o) u) /\ near eps s p /\ near eps o p.
Proof.
  intros s o p. unfold intersect. rewrite spread_cross. destruct (rltb (Rabs (spread s o)) kEpsilon) eqn:R; rewrite eps_eq in R.
  - apply rltb_iff in R. split; [discriminate|]. intros [H _]. lra.
  - apply rltb_false in R. assert (N : spread s o <> 0) by (apply (Rabs_zero_lt _ eps); [apply eps_pos|exact R]).
    rewrite (crossing_exact s o p N). unfold on_line. tauto.
Qed.
Lemma on_near s x e : 0 <= e -> on s x -> near e s x.
Proof. intros E O. exists x. split; [exact O|]. now rewrite (proj2 (dist_zero x x) eq_refl). Qed.
Theorem common_point : forall s o x, eps <= Rabs (spread s o) -> on s x -> on o x -> intersect s o = Some x.
Proof.
  intros s o x W A B. apply intersect_exact. pose proof eps_pos as E. rewrite eps_eq in E. split; [exact W|].
  destruct A as (t & T & Ex), B as (u & U & Ey). split; [now exists t|]. split; [now exists u|]. split; apply on_near; try lra; [now exists t|now exists u].
Qed.
Theorem parallel_none : forall s o, Rabs (spread s o) < eps -> intersect s o = None.
Proof. intros s o H. destruct (intersect s o) as [p|] eqn:E; [|reflexivity]. apply intersect_exact in E. lra. Qed.
Lemma option_eq {A} (a b : option A) : (forall x, a = Some x <-> b = Some x) -> a = b.
Proof. intros H. destruct a as [x|]; [symmetry; now apply H|]. destruct b as [y|]; [|reflexivity]. exact (proj2 (H y) eq_refl). Qed.
Lemma spread_sym s o : spread o s = - spread s o. Proof. unfold spread. ring. Qed.
Definition swap_ends (s : seg) : seg := seg_points (end_ s) (start_ s).
Lemma on_swap s x : on (swap_ends s) x <-> on s x.
Proof. unfold on, swap_ends. cbn. split; apply on_segment_sym. Qed.
Theorem intersect_symmetric : forall s o, intersect o s = intersect s o /\
  forall s', start_ s' = end_ s -> end_ s' = start_ s -> intersect s' o = intersect s o /\ intersect o s' = intersect o s.
Proof.
  assert (Sym : forall s o, intersect o s = intersect s o).
  { intros s o. apply option_eq. intros p. rewrite !intersect_exact, (spread_sym s o), Rabs_Ropp. tauto. }
  intros s o. split; [apply Sym|]. intros s' E1 E2. assert (G : intersect s' o = intersect s o).
  { apply option_eq. intros p. rewrite !intersect_exact. assert (Sp : spread s' o = - spread s o) by (unfold spread; rewrite E1, E2; ring). rewrite Sp, Rabs_Ropp.
    assert (Ol : (exists t, p = between (start_ s') (end_ s') t) <-> (exists t, p = between (start_ s) (end_ s) t)).
    { rewrite E1, E2. split; intros (t & ->); exists (1 - t); apply between_sym. }
    assert (Nl : near eps s' p <-> near eps s p).
    { unfold near, on. rewrite E1, E2. split; intros (y & Y & D); exists y; (split; [now apply on_segment_sym|exact D]). }
    rewrite Ol, Nl. tauto. }
  split; [exact G|]. now rewrite (Sym s' o), (Sym s o).
Qed.

(** ** IntersectOrCoincide *)
Definition touches (s : seg) (q : point) : Prop := exists y, on s y /\ dist q y < eps.
Lemma distance_touches s q : rltb (distance_sqr_to_point s q) (kEpsilon * kEpsilon) = true <-> touches s q.
Proof.
  rewrite rltb_iff, eps_eq. pose proof eps_pos as E. rewrite eps_eq in E. destruct (distance_least s q) as (d & [(x & X & Ex) L] & ->).
  assert (0 <= d) by (rewrite <- Ex; apply dist_nonneg). split.
  - intros H1. exists x. split; [exact X|]. rewrite Ex. nra.
  - intros (y & Y & D). specialize (L y Y). assert (d < eps) by lra. nra.
Qed.
Theorem coincide_exact : forall s o,
  (eps <= Rabs (spread s o) -> (intersect_or_coincide s o = true <-> exists p, intersect s o = Some p)) /\
  (Rabs (spread s o) < eps -> (intersect_or_coincide s o = true <->
     (exists y, on s y /\ dist (start_ o) y < eps) \/ (exists y, on s y /\ dist (end_ o) y < eps) \/
     (exists y, on o y /\ dist (start_ s) y < eps) \/ (exists y, on o y /\ dist (end_ s) y < eps))).
Proof.
  intros s o. unfold intersect_or_coincide, intersect. rewrite spread_cross. split; intros H.
  - rewrite (proj2 (rltb_false _ _)) by exact H. destruct (crossing s o (spread s o)) as [p|]; split; intros G; try easy.
    + now exists p.
    + destruct G; discriminate.
  - rewrite (proj2 (rltb_iff _ _)) by exact H. rewrite !orb_true_iff, !distance_touches. unfold touches. tauto.
Qed.
Theorem coincide_symmetric : forall s o, intersect_or_coincide o s = intersect_or_coincide s o.
Proof.
  intros s o. apply Bool.eq_iff_eq_true. destruct (coincide_exact s o) as [A B], (coincide_exact o s) as [C D].
  rewrite (spread_sym s o), Rabs_Ropp in C, D. destruct (Rlt_dec (Rabs (spread s o)) eps) as [H|H].
  - rewrite (B H), (D H). tauto.
  - rewrite (A ltac:(lra)), (C ltac:(lra)). now rewrite (proj1 (intersect_symmetric s o)).
Qed.
(** Segments of one line that share a point share an end. *)
Lemma parallel_share s o : spread s o = 0 -> meet s o -> on s (start_ o) \/ on s (end_ o) \/ on o (start_ s) \/ on o (end_ s).
Proof.
  intros Z (x & (t & T & Ex) & (u & U & Ey)). set (a := start_ s) in *. set (b := end_ s) in *. set (c := start_ o) in *. set (d := end_ o) in *.
  destruct (Req_dec (distance_sqr a b) 0) as [Ed|Ed].
  { assert (Eab : a = b). { apply dist_zero. rewrite distance_sqr_dist in Ed. pose proof (dist_nonneg a b). nra. }
    right; right; left. exists u. split; [exact U|]. fold a c d. rewrite <- Ey, Ex, <- Eab. unfold between. destruct a; cbn; f_equal; ring. }
  (* the second segment runs along the first: d - c = k (b - a) *)
  set (k := dot (psub d c) (psub b a) / distance_sqr a b).
  assert (Dir : forall v, between c d v = between a b (t + (v - u) * k)).
  { intros v. assert (P : psub d c = times (psub b a) k).
    { unfold spread in Z. fold a b c d in Z. unfold k. destruct a as [a1 a2], b as [b1 b2], c as [c1 c2], d as [d1 d2]. flat.
      f_equal; apply (Rmult_eq_reg_r ((b1 - a1) * (b1 - a1) + (b2 - a2) * (b2 - a2))); try exact Ed.
      - replace ((b1 - a1) * (((d1 - c1) * (b1 - a1) + (d2 - c2) * (b2 - a2)) / ((b1 - a1) * (b1 - a1) + (b2 - a2) * (b2 - a2))) * ((b1 - a1) * (b1 - a1) + (b2 - a2) * (b2 - a2)))
          with ((b1 - a1) * ((d1 - c1) * (b1 - a1) + (d2 - c2) * (b2 - a2))) by (field; exact Ed). 
        replace ((d1 - c1) * ((b1 - a1) * (b1 - a1) + (b2 - a2) * (b2 - a2))) with ((b1 - a1) * (d1 - c1) * (b1 - a1) + (b2 - a2) * ((b2 - a2) * (d1 - c1))) by ring.
        replace ((b2 - a2) * (d1 - c1)) with ((b1 - a1) * (d2 - c2)) by lra. ring.
      - replace ((b2 - a2) * (((d1 - c1) * (b1 - a1) + (d2 - c2) * (b2 - a2)) / ((b1 - a1) * (b1 - a1) + (b2 - a2) * (b2 - a2))) * ((b1 - a1) * (b1 - a1) + (b2 - a2) * (b2 - a2)))
          with ((b2 - a2) * ((d1 - c1) * (b1 - a1) + (d2 - c2) * (b2 - a2))) by (field; exact Ed).
        replace ((b2 - a2) * ((d1 - c1) * (b1 - a1) + (d2 - c2) * (b2 - a2))) with ((b2 - a2) * (d1 - c1) * (b1 - a1) + (d2 - c2) * (b2 - a2) * (b2 - a2)) by ring.
        replace ((b2 - a2) * (d1 - c1)) with ((b1 - a1) * (d2 - c2)) by lra. ring. }
    assert (Q : between a b t = between c d u) by congruence. revert P Q. destruct a as [a1 a2], b as [b1 b2], c as [c1 c2], d as [d1 d2]. flat. clearbody k.
    intros P Q. apply pair_equal_spec in P, Q. destruct P as [P1 P2], Q as [Q1 Q2]. rewrite P1, P2 in *. f_equal; lra. }
  pose proof (Dir 0) as D0. rewrite between_0 in D0. pose proof (Dir 1) as D1. rewrite between_1 in D1.
  set (v0 := t + (0 - u) * k) in *. set (v1 := t + (1 - u) * k) in *.
  assert (Cv : t = (1 - u) * v0 + u * v1) by (unfold v0, v1; ring).
  destruct (Rle_dec 0 v0) as [A0|A0], (Rle_dec v0 1) as [B0|B0].
  - left. exists v0. split; [lra|exact D0].
  - destruct (Rle_dec 0 v1) as [A1|A1], (Rle_dec v1 1) as [B1|B1].
    + right; left. exists v1. split; [lra|exact D1].
    + exfalso. clearbody v0 v1. clear - Cv T U A0 B0 A1 B1. destruct (Rlt_dec 0 u) as [Hu|Hu]; [nra|]. assert (u = 0) by lra. subst u. lra.
    + right; right; left. exists (u - t / k). assert (K : k < 0) by (unfold v0, v1 in *; nra). fold a c d.
      assert (Tk : t / k * k = t) by (field; lra).
      split; [|rewrite Dir; replace (t + (u - t / k - u) * k) with 0 by (unfold Rminus; nra); now rewrite between_0]. unfold v0, v1 in *. split; apply Rnot_lt_le; intros G; nra.
    + lra.
  - destruct (Rle_dec 0 v1) as [A1|A1], (Rle_dec v1 1) as [B1|B1].
    + right; left. exists v1. split; [lra|exact D1].
    + right; right; left. exists (u - t / k). assert (K : 0 < k) by (unfold v0, v1 in *; nra). fold a c d.
      assert (Tk : t / k * k = t) by (field; lra).
      split; [|rewrite Dir; replace (t + (u - t / k - u) * k) with 0 by (unfold Rminus; nra); now rewrite between_0]. unfold v0, v1 in *. split; apply Rnot_lt_le; intros G; nra.
    + exfalso. clearbody v0 v1. clear - Cv T U A0 B0 A1 B1. destruct (Rlt_dec 0 u) as [Hu|Hu]; [nra|]. assert (u = 0) by lra. subst u. lra.
    + lra.
  - lra.
Qed.
Theorem coincide_parallel : forall s o, spread s o = 0 -> meet s o -> intersect_or_coincide s o = true.
Proof.
  intros s o Z M. pose proof eps_pos as E. rewrite eps_eq in E. apply coincide_exact; [rewrite Z, Rabs_R0; exact E|].
  assert (Self : forall x y : point, x = y -> dist x y < eps) by (intros x y ->; now rewrite (proj2 (dist_zero y y) eq_refl)).
  destruct (parallel_share s o Z M) as [H|[H|[H|H]]]; [left|right; left|right; right; left|right; right; right]; eexists; (split; [exact H|now apply Self]).
Qed.
Theorem coincide_near : forall s o, intersect_or_coincide s o = true -> exists x y, on s x /\ on o y /\ dist x y <= 2 * eps.
Proof.
  intros s o H. pose proof eps_pos as E. rewrite eps_eq in E. destruct (coincide_exact s o) as [A B]. destruct (Rlt_dec (Rabs (spread s o)) eps) as [G|G].
  - apply (B G) in H. destruct H as [(y & Y & D)|[(y & Y & D)|[(y & Y & D)|(y & Y & D)]]].
    + exists y, (start_ o). split; [exact Y|]. split; [apply on_segment_l|]. rewrite dist_sym. lra.
    + exists y, (end_ o). split; [exact Y|]. split; [apply on_segment_r|]. rewrite dist_sym. lra.
    + exists (start_ s), y. split; [apply on_segment_l|]. split; [exact Y|]. lra.
    + exists (end_ s), y. split; [apply on_segment_r|]. split; [exact Y|]. lra.
  - apply (A ltac:(lra)) in H. destruct H as (p & H). apply intersect_exact in H. destruct H as (_ & _ & _ & (x & X & Dx) & (y & Y & Dy)).
    exists x, y. split; [exact X|]. split; [exact Y|]. pose proof (dist_triangle x p y). rewrite (dist_sym x p) in *. lra.
Qed.

(** ** MightIntersect *)
Lemma between_bounds x y t : 0 <= t <= 1 -> Rmin x y <= x + t * (y - x) <= Rmax x y.
Proof. intros T. unfold Rmin, Rmax. destruct (Rle_dec x y); nra. Qed.
Lemma on_bounds s p : on s p -> in_bounds s p.
Proof. intros (t & T & ->). unfold in_bounds, between. cbn [fst snd]. split; now apply between_bounds. Qed.
Lemma gap a b c d e : a <= b -> c <= d -> (c <= b + e /\ a - e <= d <-> exists x y, a <= x <= b /\ c <= y <= d /\ Rabs (x - y) <= e) \/ e < 0.
Proof.
  intros A C. destruct (Rlt_dec e 0) as [E|E]; [now right|left]. split.
  - intros [P Q]. destruct (Rlt_dec b c) as [H|H]; [|destruct (Rlt_dec d a) as [G|G]].
    + exists b, c. repeat split; try lra. unfold Rabs. destruct (Rcase_abs _); lra.
    + exists a, d. repeat split; try lra. unfold Rabs. destruct (Rcase_abs _); lra.
    + exists (Rmax a c), (Rmax a c). unfold Rmax. rewrite Rminus_diag_eq by reflexivity. rewrite Rabs_R0. destruct (Rle_dec a c); repeat split; lra.
  - intros (x & y & X & Y & D). revert D. unfold Rabs. destruct (Rcase_abs _); lra.
Qed.
Theorem might_exact : forall s o, might_intersect s o = true <->
  exists p q, in_bounds s p /\ in_bounds o q /\ Rabs (fst p - fst q) <= eps /\ Rabs (snd p - snd q) <= eps.
Proof.
  intros s o. unfold might_intersect. rewrite !andb_true_iff, !rleb_iff, eps_eq. pose proof eps_pos as E. rewrite eps_eq in E.
  assert (M : forall x y, Rmin x y <= Rmax x y) by (intros x y; unfold Rmin, Rmax; destruct (Rle_dec x y); lra).
  destruct (gap (Rmin (fst (start_ s)) (fst (end_ s))) (Rmax (fst (start_ s)) (fst (end_ s))) (Rmin (fst (start_ o)) (fst (end_ o))) (Rmax (fst (start_ o)) (fst (end_ o))) eps (M _ _) (M _ _)) as [Gx|]; [|lra].
  destruct (gap (Rmin (snd (start_ s)) (snd (end_ s))) (Rmax (snd (start_ s)) (snd (end_ s))) (Rmin (snd (start_ o)) (snd (end_ o))) (Rmax (snd (start_ o)) (snd (end_ o))) eps (M _ _) (M _ _)) as [Gy|]; [|lra].
  unfold in_bounds. split.
  - intros [[[A B] C] D]. destruct (proj1 Gx (conj A B)) as (x & x' & X1 & X2 & X3), (proj1 Gy (conj C D)) as (y & y' & Y1 & Y2 & Y3).
    exists (x, y), (x', y'). cbn [fst snd]. tauto.
  - intros ([x y] & [x' y'] & [P1 P2] & [Q1 Q2] & D1 & D2). cbn [fst snd] in *.
    destruct (proj2 Gx) as [A B]; [exists x, x'; tauto|]. destruct (proj2 Gy) as [C D]; [exists y, y'; tauto|]. tauto.
Qed.
Theorem might_necessary : forall s o, meet s o -> might_intersect s o = true.
Proof.
  intros s o (x & A & B). apply might_exact. exists x, x. pose proof eps_pos as E. rewrite eps_eq in E. split; [now apply on_bounds|]. split; [now apply on_bounds|].
  rewrite !Rminus_diag_eq by reflexivity. rewrite Rabs_R0. lra.
Qed.
