(** Two convex chains: what one pass through the loop can rely on. *)
From Coq Require Import Reals Lra Psatz List Arith Lia.
From Verif Require Import PolySpec PolyChain.
Open Scope R_scope.

(** Heights along one edge. *)
Section Edge.
Variables (X : chain) (GX : good X).
Lemma edge_up i a z : on X i z -> 0 <= ca X i - a <= PI ->
  hgt a (cv X i) <= hgt a z <= hgt a (cv X (S i)).
Proof.
  intros (s & Sr & ->) A. rewrite (g_move X GX i), !hgt_move.
  assert (0 <= sin (ca X i - a)) by (apply sin_ge_0; lra).
  assert (0 <= s * sin (ca X i - a)) by (apply Rmult_le_pos; lra).
  assert (0 <= (cl X i - s) * sin (ca X i - a)) by (apply Rmult_le_pos; lra). lra.
Qed.
Lemma edge_down i a z : on X i z -> 0 <= a - ca X i <= PI ->
  hgt a (cv X (S i)) <= hgt a z <= hgt a (cv X i).
Proof.
  intros (s & Sr & ->) A. rewrite (g_move X GX i), !hgt_move.
  assert (N : sin (ca X i - a) = - sin (a - ca X i)) by (rewrite <- sin_neg; f_equal; ring).
  assert (0 <= sin (a - ca X i)) by (apply sin_ge_0; lra). rewrite N.
  assert (0 <= s * sin (a - ca X i)) by (apply Rmult_le_pos; lra).
  assert (0 <= (cl X i - s) * sin (a - ca X i)) by (apply Rmult_le_pos; lra). lra.
Qed.
Lemma edge_start i a z : on X i z -> 0 < ca X i - a < PI -> hgt a z <= hgt a (cv X i) -> z = cv X i.
Proof.
  intros (s & Sr & ->) A L. rewrite hgt_move in L.
  assert (0 < sin (ca X i - a)) by (apply sin_gt_0; lra).
  destruct (Rle_lt_dec s 0) as [S0|S0]; [replace s with 0 by lra; apply move_0|].
  assert (0 < s * sin (ca X i - a)) by (apply Rmult_lt_0_compat; lra). lra.
Qed.
Lemma edge_end i a z : on X i z -> 0 < a - ca X i < PI -> hgt a z <= hgt a (cv X (S i)) -> z = cv X (S i).
Proof.
  intros (s & Sr & ->) A L. rewrite (g_move X GX i) in *. rewrite !hgt_move in L.
  assert (N : sin (ca X i - a) = - sin (a - ca X i)) by (rewrite <- sin_neg; f_equal; ring).
  assert (0 < sin (a - ca X i)) by (apply sin_gt_0; lra). rewrite N in L.
  destruct (Rle_lt_dec (cl X i) s) as [S0|S0]; [replace s with (cl X i) by lra; auto|].
  assert (0 < (cl X i - s) * sin (a - ca X i)) by (apply Rmult_lt_0_compat; lra). lra.
Qed.
End Edge.

Section Pair.
Variables (X Y : chain) (GX : good X) (GY : good Y).
Definition apart (i j : nat) : Prop := forall z, on X i z -> on Y j z -> False.
(** If an edge of Y ends to the left of an edge of X, the next edges climb on, so only their first start can be
    on the line. *)
Lemma climb i j k y : ca X i <= ca Y j -> (j < k)%nat -> ca Y k < ca X i + PI -> left X i (cv Y (S j)) ->
  on Y k y -> hgt (ca X i) y <= hgt (ca X i) (cv X i) -> k = S j /\ y = cv Y (S j).
Proof.
  intros A K B L Oy H. unfold left in L.
  pose proof (a_lt Y GY j k K) as Ak.
  pose proof (edge_up Y GY k (ca X i) y Oy ltac:(lra)) as [U _].
  assert (M : forall l, (S j <= l < S j + (k - S j))%nat -> ca X i <= ca Y l <= ca X i + PI).
  { intros l Hl. pose proof (a_lt Y GY j l ltac:(lia)). pose proof (a_le Y GY l k ltac:(lia)). lra. }
  destruct (Nat.eq_dec k (S j)) as [->|N].
  - split; auto. apply (edge_start Y (S j) (ca X i)); auto; lra.
  - exfalso. assert (W : hgt (ca X i) (cv Y (S j)) < hgt (ca X i) (cv Y (S j + (k - S j)))).
    { apply up_strict; auto; [lia|]. pose proof (a_lt Y GY j (S j) ltac:(lia)). pose proof (a_lt Y GY (S j) k ltac:(lia)). lra. }
    replace (S j + (k - S j))%nat with k in W by lia. lra.
Qed.
(** The end of an edge of X that starts inside Y is inside Y. *)
Lemma enter i j c : on X i c -> inC Y c -> ca Y 0 <= ca X i -> ca X i <= ca Y j -> left X i (cv Y (S j)) -> apart i j ->
  (forall k, (k < j)%nat -> ca Y k <= ca X i \/ forall z, on Y k z -> ~ inC X z) -> inC Y (cv X (S i)).
Proof.
  intros Oc Ic A0 A L Ap H.
  assert (E : exists s, 0 <= s /\ cv X (S i) = move c s (ca X i) /\ (forall t, 0 <= t <= s -> on X i (move c t (ca X i)))).
  { destruct Oc as (s & Sr & ->). exists (cl X i - s). split; [lra|]. split.
    - rewrite move_move. rewrite (g_move X GX). f_equal. ring.
    - intros t T. exists (s + t). split; [lra | now rewrite move_move]. }
  destruct E as (s & S0 & E & On).
  destruct (exit_edge Y GY (ca X i) c s S0 A0 Ic) as [Z|(k & t & Ak & T & Oy)]; [now rewrite E|]. exfalso.
  pose proof (On t T) as Ox.
  destruct (lt_eq_lt_dec k j) as [[K|K]|K].
  - destruct (H k K) as [Hk|Hk]; [lra|]. apply (Hk _ Oy). apply (on_in X GX i); auto.
  - subst k. apply (Ap _ Ox Oy).
  - destruct (climb i j k _ A K ltac:(lra) L Oy) as [-> Ey].
    + rewrite (on_height X i _ Ox). lra.
    + rewrite Ey in *. apply (Ap _ Ox). apply on_end; auto.
Qed.
(** Nothing of an edge that ends outside. *)
Lemma edge_out i j : 0 <= ca Y j - ca X i <= PI -> ~ left X i (cv Y (S j)) -> forall z, on Y j z -> ~ inC X z.
Proof.
  intros A N z Oz Iz. apply N. unfold left. pose proof (edge_up Y GY j (ca X i) z Oz A). pose proof (Iz i) as L. unfold left in L. lra.
Qed.
(** The turn does not run ahead while the polygons meet. *)
Lemma keep_up i j z : inC X z -> inC Y z -> ca X i <= ca Y j -> ca Y j <= ca X i + PI -> ~ left X i (cv Y (S j)) ->
  ca Y (S j) < ca X i + PI.
Proof.
  intros Zx Zy A B N. destruct (Rlt_le_dec (ca Y (S j)) (ca X i + PI)) as [|C]; auto. exfalso. apply N.
  pose proof (support_top Y GY j (ca X i) z ltac:(lra) Zy). pose proof (Zx i) as L. unfold left in *. lra.
Qed.

Definition meet (z : pt) : Prop := inC X z /\ inC Y z.
Definition flat : Prop := exists a h, forall z, meet z -> hgt a z = h.
Definition supp (a : R) (w : pt) : Prop := forall z, meet z -> hgt a w <= hgt a z.
Definition extreme (w : pt) : Prop :=
  meet w /\ forall z a s, 0 < s -> meet z -> w = move z s a -> forall t, 0 < t -> ~ meet (move w t a).
Lemma supp_x i w : on X i w -> supp (ca X i) w.
Proof. intros O z [Z _]. rewrite (on_height X i w O). apply (Z i). Qed.
Lemma supp_y j w : on Y j w -> supp (ca Y j) w.
Proof. intros O z [_ Z]. rewrite (on_height Y j w O). apply (Z j). Qed.
Lemma two_supports a b w : meet w -> supp a w -> supp b w -> sin (b - a) <> 0 -> extreme w.
Proof.
  intros M A B N. split; auto. intros z g s S0 Z -> t T Mt.
  pose proof (A z Z) as A1. pose proof (A _ Mt) as A2. pose proof (B z Z) as B1. pose proof (B _ Mt) as B2.
  rewrite !hgt_move in *.
  assert (Za : s * sin (g - a) = 0).
  { apply Rle_antisym; [lra|]. assert (0 <= sin (g - a)); [|apply Rmult_le_pos; lra].
    destruct (Rle_lt_dec 0 (sin (g - a))); auto. assert (0 < t * (- sin (g - a))) by (apply Rmult_lt_0_compat; lra). lra. }
  assert (Zb : s * sin (g - b) = 0).
  { apply Rle_antisym; [lra|]. assert (0 <= sin (g - b)); [|apply Rmult_le_pos; lra].
    destruct (Rle_lt_dec 0 (sin (g - b))); auto. assert (0 < t * (- sin (g - b))) by (apply Rmult_lt_0_compat; lra). lra. }
  assert (E : z = move z s g) by (apply (height_det a b); auto; rewrite hgt_move; lra).
  assert (s = 0); [|lra]. apply (move_inj z s 0 g). rewrite move_0. auto.
Qed.
Lemma opposite_flat a w : supp a w -> supp (a + PI) w -> flat.
Proof. intros A B. exists a, (hgt a w). intros z Z. pose proof (A z Z). pose proof (B z Z) as H0. rewrite !hgt_pi in H0. lra. Qed.
(** Three different extreme points are not on one line. *)
Lemma flat_two u v w : flat -> extreme u -> extreme v -> extreme w -> u <> v -> v <> w -> u <> w -> False.
Proof.
  intros (a & h & F) Eu Ev Ew N1 N2 N3.
  destruct (same_height a v u) as (s & ->); [rewrite !F; auto; apply Eu || apply Ev|].
  destruct (same_height a w u) as (t & ->); [rewrite !F; auto; apply Eu || apply Ew|].
  assert (Back : forall r, move u (- r) (a + PI) = move u r a).
  { intros r. unfold move. rewrite neg_cos, neg_sin. f_equal; ring. }
  assert (s <> 0) by (intros ->; rewrite move_0 in *; auto).
  assert (t <> 0) by (intros ->; rewrite move_0 in *; auto).
  assert (s <> t) by (intros ->; auto).
  assert (K : forall x y z : R, x < y < z -> extreme (move u x a) -> extreme (move u y a) -> extreme (move u z a) -> False).
  { intros x y z O Ex Ey Ez. apply (proj2 Ey (move u x a) a (y - x)) with (t := z - y); [lra | apply Ex | rewrite move_move; f_equal; ring | lra |].
    rewrite move_move. replace (y + (z - y)) with z by ring. apply Ez. }
  assert (E0 : extreme (move u 0 a)) by (now rewrite move_0).
  destruct (Rlt_le_dec s 0), (Rlt_le_dec t 0), (Rlt_le_dec s t);
    try (apply (K s t 0); auto; lra); try (apply (K t s 0); auto; lra); try (apply (K s 0 t); auto; lra);
    try (apply (K t 0 s); auto; lra); try (apply (K 0 s t); auto; lra); try (apply (K 0 t s); auto; lra); lra.
Qed.
(** A corner of X that the edge j' of Y goes through, and the edge before it. *)
Lemma corner_reached i j j' : ca X i <= ca Y j -> (j < j')%nat -> left X i (cv Y (S j)) -> apart i j ->
  on Y j' (cv X (S i)) -> ca Y j' <= ca X (S i) + PI -> flat.
Proof.
  intros A J L Ap O B.
  destruct (Rlt_le_dec (ca Y j') (ca X i + PI)) as [C|C].
  - exfalso. destruct (climb i j j' _ A J C L O) as [-> E]; [rewrite (end_height X GX); lra|].
    apply (Ap (cv X (S i))); [apply on_end; auto|]. rewrite E. apply on_end; auto.
  - exists (ca Y j'), (hgt (ca Y j') (cv X (S i))). intros z [Zx Zy].
    pose proof (support X GX i (ca Y j' - PI) z ltac:(lra) Zx) as H1.
    pose proof (hgt_pi (ca Y j' - PI) z) as E1. pose proof (hgt_pi (ca Y j' - PI) (cv X (S i))) as E2.
    replace (ca Y j' - PI + PI) with (ca Y j') in * by ring.
    pose proof (supp_y j' _ O z (conj Zx Zy)). lra.
Qed.
(** The edge through the first point is not passed before the other polygon is around. *)
Lemma not_passed i j j' x0 : ca X i <= ca Y j -> (j < j')%nat -> left X i (cv Y (S j)) -> on X i x0 -> on Y j' x0 ->
  ca Y j' < ca X i + PI -> j' = S j /\ x0 = cv Y (S j).
Proof.
  intros A J L Ox Oy B. apply (climb i j j' x0 A J B L Oy). rewrite (on_height X i x0 Ox). lra.
Qed.
End Pair.
