(** Proofs about the comparison of examples. *)
From Coq Require Import String Permutation Lia Lqa.
From Verif Require Import Base ExEqModel ExEqSpec.
Open Scope list_scope.

Lemma lookup_in k f e : is_map e -> In (k, f) e -> lookup k e = Some f.
Proof.
  unfold is_map, lookup. induction e as [|[k' f'] e IH]; [intros _ []|]. cbn [map fst find]. intros N I. inversion N as [|? ? NI N']; subst.
  destruct (String.eqb_spec k' k) as [->|NE].
  - destruct I as [I|I]; [injection I as ->; reflexivity|]. exfalso. apply NI. apply (in_map fst) in I. exact I.
  - destruct I as [I|I]; [injection I as -> ->; congruence|]. apply IH; assumption.
Qed.
Lemma lookup_some k f e : lookup k e = Some f -> In (k, f) e.
Proof.
  unfold lookup. destruct (find _ e) as [[k' f']|] eqn:F; [|discriminate]. intros H. injection H as H. cbn in H. subst f'.
  apply find_some in F. destruct F as [I Q]. apply String.eqb_eq in Q. cbn in Q. subst k'. exact I.
Qed.
Lemma lookup_none k e : lookup k e = None <-> ~ In k (map fst e).
Proof.
  split.
  - intros H I. apply in_map_iff in I. destruct I as ((k', f) & Q & I). cbn in Q. subst k'.
    unfold lookup in H. destruct (find _ e) eqn:F; [discriminate|]. apply (find_none _ _ F) in I. cbn in I. rewrite String.eqb_refl in I. discriminate.
  - intros N. destruct (lookup k e) as [f|] eqn:E; [|reflexivity]. exfalso. apply N. apply lookup_some in E. apply (in_map fst) in E. exact E.
Qed.

Lemma isclose_near atol rtol a b : isclose atol rtol a b = true <-> near atol rtol a b.
Proof.
  unfold near. destruct a as [x| | |], b as [y| | |]; cbn [isclose]; split; try discriminate; try reflexivity; try tauto;
    try (intros [(u & v & A & B & _)|[[A B]|[A B]]]; discriminate).
  - intros H. left. exists x, y. apply Qle_bool_iff in H. auto.
  - intros [(u & v & A & B & H)|[[A B]|[A B]]]; try discriminate. injection A as ->. injection B as ->. apply Qle_bool_iff. exact H.
Qed.
Lemma allclose_near atol rtol a b : (length a = length b /\ allclose atol rtol a b = true) <-> Forall2 (near atol rtol) a b.
Proof.
  unfold allclose. revert b. induction a as [|x a IH]; intros [|y b]; cbn [length combine forallb fst snd].
  - split; [constructor|auto].
  - split; [intros [H _]; discriminate|intros H; inversion H].
  - split; [intros [H _]; discriminate|intros H; inversion H].
  - rewrite andb_true_iff, isclose_near. split.
    + intros [L [N C]]. injection L as L. constructor; [exact N|]. apply IH. auto.
    + intros H. inversion H as [|? ? ? ? N F]; subst. apply IH in F. destruct F as [L C]. split; [f_equal; exact L|auto].
Qed.
Lemma list_eqb_eq {A} (eqb : A -> A -> bool) : (forall x y, eqb x y = true <-> x = y) -> forall a b, list_eqb eqb a b = true <-> a = b.
Proof.
  intros E. induction a as [|x a IH]; intros [|y b]; cbn [list_eqb]; try (split; [discriminate|discriminate]); [split; reflexivity|].
  rewrite andb_true_iff, E, IH. split; [intros [-> ->]; reflexivity|intros H; injection H; auto].
Qed.

Definition pair_ok (atol rtol : Q) (f g : feature) : bool :=
  match g with FloatList vb => Nat.eqb (length (floats f)) (length vb) && allclose atol rtol (floats f) vb | _ => message_equal g f end.
Lemma pair_ok_iff atol rtol f g : pair_ok atol rtol f g = true <-> agree atol rtol f g \/ confused f g.
Proof.
  assert (BS := list_eqb_eq String.eqb String.eqb_eq). assert (ZS := list_eqb_eq Z.eqb Z.eqb_eq).
  unfold confused. destruct g as [|y|y|y]; cbn [pair_ok].
  - destruct f; cbn [message_equal agree]; split; try discriminate; try tauto; intros [H|[H _]]; try discriminate; try destruct H; reflexivity.
  - destruct f; cbn [message_equal agree]; rewrite ?BS; split; try discriminate; auto; intros [H|[H _]]; try discriminate; try contradiction; auto.
  - rewrite andb_true_iff, Nat.eqb_eq, allclose_near. destruct f as [|x|x|x]; cbn [floats agree].
    + split; [intros H; inversion H; right; split; [reflexivity|discriminate]|intros [[]|[H _]]; injection H as ->; constructor].
    + split; [intros H; inversion H; right; split; [reflexivity|discriminate]|intros [[]|[H _]]; injection H as ->; constructor].
    + split; [auto|]. intros [H|[H N]]; [exact H|]. exfalso. apply (N x). reflexivity.
    + split; [intros H; inversion H; right; split; [reflexivity|discriminate]|intros [[]|[H _]]; injection H as ->; constructor].
  - destruct f; cbn [message_equal agree]; rewrite ?ZS; split; try discriminate; auto; intros [H|[H _]]; try discriminate; try contradiction; auto.
Qed.

Lemma features_match_iff atol rtol a b : features_match atol rtol a b = true <-> forall k f, In (k, f) a -> exists g, lookup k b = Some g /\ pair_ok atol rtol f g = true.
Proof.
  induction a as [|[k f] a IH]; cbn [features_match].
  - split; [intros _ k f []|reflexivity].
  - destruct (lookup k b) as [g|] eqn:L.
    + assert (X : (match g with
          | FloatList vb => if negb (Nat.eqb (length (floats f)) (length vb)) then false else if negb (allclose atol rtol (floats f) vb) then false else features_match atol rtol a b
          | _ => if negb (message_equal g f) then false else features_match atol rtol a b end) = pair_ok atol rtol f g && features_match atol rtol a b).
      { destruct g; cbn [pair_ok]; try (destruct (message_equal _ f); reflexivity). destruct (Nat.eqb _ _); [|reflexivity]. destruct (allclose _ _ _ _); reflexivity. }
      rewrite X, andb_true_iff, IH. split.
      * intros [P H] k' f' [E|I]; [injection E as <- <-; exists g; auto|apply H; exact I].
      * intros H. split; [|intros k' f' I; apply H; right; exact I]. destruct (H k f (or_introl eq_refl)) as (g' & L' & P). congruence.
    + split; [discriminate|]. intros H. destruct (H k f (or_introl eq_refl)) as (g & L' & _). congruence.
Qed.
Lemma keys_known_iff b a : keys_known b a = true <-> forall k, In k (map fst b) -> In k (map fst a).
Proof.
  induction b as [|[k f] b IH]; cbn [keys_known map fst].
  - split; [intros _ k []|reflexivity].
  - destruct (lookup k a) as [g|] eqn:L.
    + rewrite IH. split; [|intros H k' I; apply H; right; exact I]. intros H k' [<-|I]; [|apply H; exact I]. apply lookup_some in L. apply (in_map fst) in L. exact L.
    + split; [discriminate|]. intros H. apply lookup_none in L. exfalso. apply L. apply H. left. reflexivity.
Qed.

(** Exactly which examples are taken for the same. *)
Theorem equal_iff atol rtol a b : is_map a -> is_map b ->
  (examples_equal atol rtol a b = true <-> related (fun f g => agree atol rtol f g \/ confused f g) a b).
Proof.
  intros MA MB. unfold examples_equal, related.
  assert (X : (if features_match atol rtol a b then keys_known b a else false) = features_match atol rtol a b && keys_known b a) by (destruct (features_match _ _ _ _); reflexivity).
  rewrite X, andb_true_iff, features_match_iff, keys_known_iff. split.
  - intros [H K]. split.
    + intros k. split; [|apply K]. intros I. apply in_map_iff in I. destruct I as ((k', f) & Q & I). cbn in Q. subst k'.
      destruct (H k f I) as (g & L & _). apply lookup_some in L. apply (in_map fst) in L. exact L.
    + intros k f g IA IB. destruct (H k f IA) as (g' & L & P). rewrite (lookup_in k g b MB IB) in L. injection L as <-. apply pair_ok_iff. exact P.
  - intros [K R]. split; [|intros k I; apply K; exact I]. intros k f I.
    assert (J : In k (map fst b)) by (apply K; apply (in_map fst) in I; exact I).
    apply in_map_iff in J. destruct J as ((k', g) & Q & J). cbn in Q. subst k'. exists g. split; [apply lookup_in; assumption|]. apply pair_ok_iff. apply (R k); assumption.
Qed.

(** Without empty float lists on the right there is no exception. *)
Theorem equal_strict atol rtol a b : is_map a -> is_map b -> no_empty_floats b ->
  (examples_equal atol rtol a b = true <-> related (agree atol rtol) a b).
Proof.
  intros MA MB N. rewrite (equal_iff atol rtol a b MA MB). split; intros [K R]; (split; [exact K|]); intros k f g IA IB.
  - destruct (R k f g IA IB) as [H|[H _]]; [exact H|]. subst g. destruct (N k IB).
  - left. apply (R k); assumption.
Qed.

(** The order in which the maps are enumerated does not matter. *)
Theorem order_irrelevant atol rtol a a' b b' : is_map a -> is_map b -> Permutation a a' -> Permutation b b' ->
  examples_equal atol rtol a b = examples_equal atol rtol a' b'.
Proof.
  intros MA MB PA PB.
  assert (MA' : is_map a') by (apply (Permutation_NoDup (Permutation_map fst PA)); exact MA).
  assert (MB' : is_map b') by (apply (Permutation_NoDup (Permutation_map fst PB)); exact MB).
  assert (E : examples_equal atol rtol a b = true <-> examples_equal atol rtol a' b' = true).
  { rewrite (equal_iff atol rtol a b MA MB), (equal_iff atol rtol a' b' MA' MB'). unfold related. split; intros [K R]; split.
    - intros k. rewrite <- (Permutation_in' (eq_refl k) (Permutation_map fst PA)), <- (Permutation_in' (eq_refl k) (Permutation_map fst PB)). apply K.
    - intros k f g IA IB. apply (R k); [apply (Permutation_in _ (Permutation_sym PA)); exact IA|apply (Permutation_in _ (Permutation_sym PB)); exact IB].
    - intros k. rewrite (Permutation_in' (eq_refl k) (Permutation_map fst PA)), (Permutation_in' (eq_refl k) (Permutation_map fst PB)). apply K.
    - intros k f g IA IB. apply (R k); [apply (Permutation_in _ PA); exact IA|apply (Permutation_in _ PB); exact IB]. }
  destruct (examples_equal atol rtol a b), (examples_equal atol rtol a' b'); try reflexivity; [symmetry; apply E; reflexivity|apply E; reflexivity].
Qed.

Lemma near_refl atol rtol x : (0 <= atol)%Q -> (0 <= rtol)%Q -> x <> NaN -> near atol rtol x x.
Proof.
  intros A R N. destruct x as [q| | |]; [|right; left; auto|right; right; auto|congruence]. left. exists q, q. split; [reflexivity|]. split; [reflexivity|].
  assert (Z : (Qabs (q - q) == 0)%Q) by (setoid_replace (q - q)%Q with 0%Q by ring; reflexivity). rewrite Z.
  assert (P := Qabs_nonneg q). assert (Q := Qmult_le_0_compat _ _ R P). lra.
Qed.

(** An example equals itself exactly when it holds no NaN. *)
Theorem self_equal atol rtol a : (0 <= atol)%Q -> (0 <= rtol)%Q -> is_map a -> (examples_equal atol rtol a a = true <-> ~ has_nan a).
Proof.
  intros A R M. rewrite (equal_iff atol rtol a a M M). split.
  - intros [_ H] (k & l & I & N). destruct (H k _ _ I I) as [F|[_ F]]; [|apply (F l); reflexivity]. cbn [agree] in F. clear - N F.
    induction l as [|x l IH]; [destruct N|]. inversion F as [|? ? ? ? NR F']; subst. destruct N as [->|N]; [|apply IH; assumption].
    destruct NR as [(x & y & E & _)|[[E _]|[E _]]]; discriminate.
  - intros N. split; [tauto|]. intros k f g I J. assert (f = g) as <-.
    { apply (lookup_in k f a M) in I. apply (lookup_in k g a M) in J. congruence. }
    left. destruct f as [|x|x|x]; cbn [agree]; try reflexivity. assert (NX : ~ In NaN x) by (intros H; apply N; exists k, x; auto).
    clear - A R NX. induction x as [|y x IH]; [constructor|]. constructor; [apply near_refl; try assumption; intros ->; apply NX; left; reflexivity|].
    apply IH. intros H. apply NX. right. exact H.
Qed.

Lemma agree_sym atol rtol f g : (rtol == 0)%Q -> agree atol rtol f g -> agree atol rtol g f.
Proof.
  intros R. destruct f as [|x|x|x], g as [|y|y|y]; cbn [agree]; try tauto; try congruence.
  intros H. induction H as [|a b x y N F IH]; constructor; [|exact IH].
  destruct N as [(u & v & -> & -> & D)|[[-> ->]|[-> ->]]]; [|right; left; auto|right; right; auto].
  left. exists v, u. split; [reflexivity|]. split; [reflexivity|]. rewrite Qabs_Qminus. rewrite R in *. rewrite Qmult_0_l in *. exact D.
Qed.
(** With an absolute tolerance only, the order of the two does not matter unless one has an empty float list. *)
Theorem symmetric atol rtol a b : (rtol == 0)%Q -> is_map a -> is_map b -> no_empty_floats a -> no_empty_floats b ->
  examples_equal atol rtol a b = examples_equal atol rtol b a.
Proof.
  intros R MA MB NA NB.
  assert (H : forall x y, is_map x -> is_map y -> no_empty_floats x -> no_empty_floats y -> examples_equal atol rtol x y = true -> examples_equal atol rtol y x = true).
  { intros x y MX MY NX NY E. apply (equal_strict atol rtol x y MX MY NY) in E. apply (equal_strict atol rtol y x MY MX NX). destruct E as [K E].
    split; [intros k; symmetry; apply K|]. intros k f g I J. apply agree_sym; [exact R|]. apply (E k); assumption. }
  destruct (examples_equal atol rtol a b) eqn:E1, (examples_equal atol rtol b a) eqn:E2; try reflexivity.
  - rewrite <- E2. symmetry. apply H; assumption.
  - rewrite <- E1. apply H; assumption.
Qed.

(** A larger tolerance accepts more. *)
Theorem monotone atol atol' rtol rtol' a b : (atol <= atol')%Q -> (rtol <= rtol')%Q -> is_map a -> is_map b ->
  examples_equal atol rtol a b = true -> examples_equal atol' rtol' a b = true.
Proof.
  intros A R MA MB. rewrite !equal_iff by assumption. intros [K H]. split; [exact K|]. intros k f g I J.
  destruct (H k f g I J) as [G|G]; [left|right; exact G].
  destruct f as [|x|x|x], g as [|y|y|y]; cbn [agree] in *; try exact G.
  clear - A R G. induction G as [|u v x y N F IH]; constructor; [|exact IH].
  destruct N as [(p & q & -> & -> & D)|N]; [|right; exact N]. left. exists p, q. split; [reflexivity|]. split; [reflexivity|].
  assert (P := Qabs_nonneg q). assert (M := Qmult_le_compat_r _ _ _ R P). lra.
Qed.

(** ** Witnesses *)
Definition one (f : feature) : example := [("x"%string, f)].
Lemma one_map f : is_map (one f).
Proof. constructor; [intros []|constructor]. Qed.
(** Integers equal an empty list of numbers, in one direction. *)
Theorem kind_refuted : exists a b, is_map a /\ is_map b /\ examples_equal (1 # 1000) 0 a b = true /\ examples_equal (1 # 1000) 0 b a = false
  /\ In ("x"%string, Int64List [1%Z; 2%Z]) a /\ In ("x"%string, FloatList []) b.
Proof.
  exists (one (Int64List [1%Z; 2%Z])), (one (FloatList [])). split; [apply one_map|]. split; [apply one_map|]. repeat split; try reflexivity; left; reflexivity.
Qed.
(** A relative tolerance is not symmetric. *)
Theorem relative_refuted : exists rtol a b, is_map a /\ is_map b /\ no_empty_floats a /\ no_empty_floats b /\ (0 < rtol)%Q
  /\ examples_equal 0 rtol a b = true /\ examples_equal 0 rtol b a = false.
Proof.
  exists (1 # 2)%Q, (one (FloatList [Fin 1])), (one (FloatList [Fin 2])). split; [apply one_map|]. split; [apply one_map|].
  split; [intros k [H|[]]; discriminate|]. split; [intros k [H|[]]; discriminate|]. repeat split; reflexivity.
Qed.
(** Being equal is not transitive. *)
Theorem transitive_refuted : exists a b c, is_map a /\ is_map b /\ is_map c /\ examples_equal (1 # 1000) 0 a b = true /\ examples_equal (1 # 1000) 0 b c = true
  /\ examples_equal (1 # 1000) 0 a c = false.
Proof.
  exists (one (FloatList [Fin 0])), (one (FloatList [Fin (1 # 1000)])), (one (FloatList [Fin (2 # 1000)])).
  repeat (split; [apply one_map|]). repeat split; reflexivity.
Qed.
(** An example with a missing number does not equal itself. *)
Theorem self_refuted : exists a, is_map a /\ examples_equal (1 # 1000) 0 a a = false.
Proof. exists (one (FloatList [NaN])). split; [apply one_map|reflexivity]. Qed.
