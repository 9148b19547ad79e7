(** Elementary facts about vectors of the plane. *)
From Coq Require Import Reals Lra Psatz List.
From Verif Require Import Base GeomModel GeomSpec.
Import ListNotations.
Open Scope R_scope.

Lemma rleb_iff a b : rleb a b = true <-> a <= b.
Proof. unfold rleb. destruct (Rle_dec a b); split; intros H; try discriminate; auto; contradiction. Qed.
Lemma rleb_false a b : rleb a b = false <-> b < a.
Proof. unfold rleb. destruct (Rle_dec a b); split; intros H; try discriminate; auto; lra. Qed.
Lemma rltb_iff a b : rltb a b = true <-> a < b.
Proof. unfold rltb. destruct (Rlt_dec a b); split; intros H; try discriminate; auto; contradiction. Qed.
Lemma rltb_false a b : rltb a b = false <-> b <= a.
Proof. unfold rltb. destruct (Rlt_dec a b); split; intros H; try discriminate; auto; lra. Qed.

(** ** Norms and distances *)
Lemma norm_nonneg v : 0 <= norm v.
Proof. apply sqrt_pos. Qed.
Lemma norm_sqr v : norm v * norm v = fst v * fst v + snd v * snd v.
Proof. apply sqrt_sqrt. nra. Qed.
Lemma norm_zero v : norm v = 0 <-> v = (0, 0).
Proof.
  destruct v as [x y]. split; intros H.
  - assert (E := norm_sqr (x, y)). rewrite H in E. cbn [fst snd] in E.
    assert (x = 0) by nra. assert (y = 0) by nra. now subst.
  - injection H as -> ->. unfold norm. cbn [fst snd]. replace (0 * 0 + 0 * 0) with 0 by ring. apply sqrt_0.
Qed.
Lemma norm_pos v : v <> (0, 0) -> 0 < norm v.
Proof.
  intros H. destruct (Rle_lt_or_eq_dec _ _ (norm_nonneg v)) as [L|E]; [assumption|].
  exfalso. apply H, norm_zero. now symmetry.
Qed.
Lemma norm_unique v x : 0 <= x -> x * x = fst v * fst v + snd v * snd v -> norm v = x.
Proof. intros Hx E. unfold norm. rewrite <- E. now apply sqrt_square. Qed.
Lemma norm_le v w : fst v * fst v + snd v * snd v <= fst w * fst w + snd w * snd w -> norm v <= norm w.
Proof. intros H. now apply sqrt_le_1_alt. Qed.
Lemma dist_norm p q : dist p q = norm (psub p q).
Proof. unfold dist, norm, psub. f_equal. cbn [fst snd]. ring. Qed.
Lemma dist_sym p q : dist p q = dist q p.
Proof. unfold dist. f_equal. ring. Qed.
Lemma dist_nonneg p q : 0 <= dist p q.
Proof. apply sqrt_pos. Qed.
Lemma dist_sqr p q : dist p q * dist p q = (fst p - fst q) * (fst p - fst q) + (snd p - snd q) * (snd p - snd q).
Proof. rewrite dist_norm, norm_sqr. reflexivity. Qed.
Lemma dist_zero p q : dist p q = 0 <-> p = q.
Proof.
  rewrite dist_norm, norm_zero. destruct p as [a b], q as [c d]. unfold psub. cbn [fst snd].
  rewrite !pair_equal_spec. split; intros [E1 E2]; split; lra.
Qed.
Lemma sqr_le a b : 0 <= b -> a * a <= b * b -> a <= b.
Proof. intros Hb H. nra. Qed.
Lemma sqr_lt a b : 0 <= b -> a * a < b * b -> a < b.
Proof. intros Hb H. nra. Qed.
Lemma cauchy_schwarz u v : dot u v <= norm u * norm v.
Proof.
  apply sqr_le; [apply Rmult_le_pos; apply norm_nonneg|].
  replace (norm u * norm v * (norm u * norm v)) with ((norm u * norm u) * (norm v * norm v)) by ring.
  rewrite !norm_sqr. unfold dot. destruct u as [a b], v as [c d]. cbn [fst snd].
  assert (H := Rle_0_sqr (a * d - b * c)). unfold Rsqr in H. nra.
Qed.
Lemma norm_triangle u v : norm (padd u v) <= norm u + norm v.
Proof.
  apply sqr_le; [assert (H1 := norm_nonneg u); assert (H2 := norm_nonneg v); lra|].
  assert (C := cauchy_schwarz u v). assert (E1 := norm_sqr u). assert (E2 := norm_sqr v).
  rewrite norm_sqr. unfold dot in C. unfold padd. cbn [fst snd]. nra.
Qed.
Lemma dist_triangle a b c : dist a c <= dist a b + dist b c.
Proof.
  rewrite !dist_norm. replace (psub a c) with (padd (psub a b) (psub b c)); [apply norm_triangle|].
  unfold padd, psub. cbn [fst snd]. f_equal; ring.
Qed.
Lemma dist_between_l a b t : 0 <= t -> dist a (between a b t) = t * dist a b.
Proof.
  intros Ht. rewrite !dist_norm. apply norm_unique; [apply Rmult_le_pos; [assumption|apply norm_nonneg]|].
  replace (t * norm (psub a b) * (t * norm (psub a b))) with (t * t * (norm (psub a b) * norm (psub a b))) by ring.
  rewrite norm_sqr. unfold psub, between. cbn [fst snd]. ring.
Qed.
Lemma between_sym a b t : between a b t = between b a (1 - t).
Proof. unfold between. f_equal; ring. Qed.
Lemma dist_between_r a b t : t <= 1 -> dist (between a b t) b = (1 - t) * dist a b.
Proof. intros Ht. rewrite between_sym, dist_sym, dist_between_l, dist_sym by lra. reflexivity. Qed.
Lemma between_0 a b : between a b 0 = a.
Proof. destruct a. unfold between. cbn [fst snd]. f_equal; ring. Qed.
Lemma between_1 a b : between a b 1 = b.
Proof. destruct a, b. unfold between. cbn [fst snd]. f_equal; ring. Qed.
Lemma on_segment_l a b : on_segment a b a.
Proof. exists 0. split; [lra|]. now rewrite between_0. Qed.
Lemma on_segment_r a b : on_segment a b b.
Proof. exists 1. split; [lra|]. now rewrite between_1. Qed.
Lemma on_segment_sym a b x : on_segment a b x -> on_segment b a x.
Proof. intros [t [Ht ->]]. exists (1 - t). split; [lra|]. apply between_sym. Qed.

Lemma turn_cross a b c : turn a b c = cross (psub b a) (psub c a).
Proof. unfold turn, cross, psub. cbn [fst snd]. ring. Qed.

(** ** A vector and its unit vector *)
Lemma unit_vector_some v u : unit_vector v = Some u -> v <> (0, 0) /\ norm v > 0 /\
  v = (norm v * fst u, norm v * snd u) /\ fst u * fst u + snd u * snd u = 1.
Proof.
  unfold unit_vector. destruct (Req_EM_T (norm v) 0) as [E|E]; [discriminate|]. intros H. injection H as <-.
  assert (N : v <> (0, 0)) by (intros C; apply E, norm_zero, C).
  assert (P := norm_pos v N). assert (S := norm_sqr v). destruct v as [x y]. cbn [fst snd] in *.
  repeat split; auto.
  - f_equal; field; lra.
  - replace (x / norm (x, y) * (x / norm (x, y)) + y / norm (x, y) * (y / norm (x, y)))
      with ((x * x + y * y) / (norm (x, y) * norm (x, y))) by (field; lra).
    rewrite S. field. nra.
Qed.
Lemma unit_vector_none v : unit_vector v = None <-> v = (0, 0).
Proof.
  unfold unit_vector. rewrite <- norm_zero. destruct (Req_EM_T (norm v) 0); split; intros H; try discriminate; auto.
  contradiction.
Qed.

(** ** Finite minima *)
Lemma argmin_exists {A} (f : A -> R) (l : list A) : l <> [] ->
  exists a, In a l /\ forall b, In b l -> f a <= f b.
Proof.
  induction l as [|a l IH]; intros H; [congruence|].
  destruct l as [|b l].
  - exists a. split; [now left|]. intros b [<-|[]]. lra.
  - destruct IH as [m [Hm Hmin]]; [discriminate|].
    destruct (Rle_dec (f a) (f m)) as [L|L].
    + exists a. split; [now left|]. intros c [<-|Hc]; [lra|]. assert (H2 := Hmin c Hc). lra.
    + exists m. split; [now right|]. intros c [<-|Hc]; [lra|]. now apply Hmin.
Qed.
