(** Generic facts about lists. *)
From Coq Require Import Permutation.
From Verif Require Import Base.
Open Scope nat_scope.

Lemma nodup_app {A} (l l' : list A) :
  NoDup l -> NoDup l' -> (forall x, In x l -> ~ In x l') -> NoDup (l ++ l').
Proof.
  induction l as [|a l IH]; intros H H' Hd; simpl; [exact H'|].
  inversion H as [|a' l0 Ha Hl]; subst. constructor.
  - rewrite in_app_iff. intros [Hx|Hx]; [contradiction|]. apply (Hd a); simpl; auto.
  - apply IH; auto. intros x Hx. apply Hd. now right.
Qed.

Lemma nodup_app_inv {A} (l l' : list A) :
  NoDup (l ++ l') -> NoDup l /\ NoDup l' /\ forall x, In x l -> ~ In x l'.
Proof.
  induction l as [|a l IH]; intros H; simpl in *.
  - split; [constructor|]. split; [exact H|]. intros x [].
  - inversion H as [|a' l0 Ha Hl]; subst. destruct (IH Hl) as (H1 & H2 & H3).
    rewrite in_app_iff in Ha. split; [constructor; tauto|]. split; [exact H2|].
    intros x [<-|Hx]; [tauto|now apply H3].
Qed.

Lemma nth_map_seq {A} (f : nat -> A) n i d : i < n -> nth i (map f (seq 0 n)) d = f i.
Proof.
  intros Hi. rewrite (nth_indep _ d (f 0)) by (now rewrite map_length, seq_length).
  rewrite map_nth, seq_nth by exact Hi. reflexivity.
Qed.

Lemma nth_map {A B} (f : A -> B) l i d d' : i < length l -> nth i (map f l) d' = f (nth i l d).
Proof.
  intros Hi. rewrite (nth_indep _ d' (f d)) by (now rewrite map_length). apply map_nth.
Qed.

(** Row-major concatenation of equally long rows. *)
Lemma nth_concat {A} n (rows : list (list A)) d : Forall (fun r => length r = n) rows ->
  forall i j, i < length rows -> j < n -> nth (i * n + j) (concat rows) d = nth j (nth i rows []) d.
Proof.
  induction rows as [|r rows IH]; intros Hf i j Hi Hj; simpl in Hi; [lia|].
  inversion Hf as [|r' rs Hr Hrs]; subst. simpl concat.
  destruct i as [|i]; simpl nth.
  - rewrite app_nth1 by lia. f_equal.
  - rewrite app_nth2 by lia. rewrite <- (IH Hrs i j) by lia. f_equal. lia.
Qed.

Lemma concat_length_const {A} n (rows : list (list A)) : Forall (fun r => length r = n) rows ->
  length (concat rows) = length rows * n.
Proof.
  induction 1 as [|r rows Hr _ IH]; simpl; [reflexivity|]. rewrite app_length, Hr, IH. reflexivity.
Qed.

Lemma firstn_repeat {A} (a : A) n k : firstn n (repeat a k) = repeat a (Nat.min n k).
Proof. revert k. induction n as [|n IH]; intros [|k]; simpl; auto. now rewrite IH. Qed.

Lemma forall2_length {A B} (R : A -> B -> Prop) l l' : Forall2 R l l' -> length l = length l'.
Proof. induction 1; cbn [length]; congruence. Qed.
