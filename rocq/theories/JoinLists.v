(** Lists by position, and list facts used for joins and groups. *)
From Coq Require Import Sorted Permutation.
From Verif Require Import Base ListLib.
Open Scope list_scope.
Open Scope nat_scope.

Lemma list_as_seq {A} (d : A) l : l = map (fun i => nth i l d) (seq 0 (length l)).
Proof.
  induction l as [|x l IH]; [reflexivity|].
  cbn [length seq map nth]. f_equal. rewrite <- seq_shift, map_map. cbn [nth]. exact IH.
Qed.
Lemma filter_map {A B} (f : B -> bool) (g : A -> B) l :
  filter f (map g l) = map g (filter (fun x => f (g x)) l).
Proof. induction l as [|x l IH]; cbn; [reflexivity|]. destruct (f (g x)); cbn; rewrite IH; reflexivity. Qed.
Lemma existsb_map {A B} (f : B -> bool) (g : A -> B) l : existsb f (map g l) = existsb (fun x => f (g x)) l.
Proof. induction l as [|x l IH]; cbn; [reflexivity|]. rewrite IH. reflexivity. Qed.
Lemma flat_map_map {A B C} (f : B -> list C) (g : A -> B) l : flat_map f (map g l) = flat_map (fun x => f (g x)) l.
Proof. induction l as [|x l IH]; cbn; [reflexivity|]. rewrite IH. reflexivity. Qed.
Lemma map_flat_map {A B C} (h : B -> C) (f : A -> list B) l : map h (flat_map f l) = flat_map (fun x => map h (f x)) l.
Proof. induction l as [|x l IH]; cbn; [reflexivity|]. rewrite map_app, IH. reflexivity. Qed.
Lemma flat_map_ext_in {A B} (f g : A -> list B) l :
  (forall x, In x l -> f x = g x) -> flat_map f l = flat_map g l.
Proof.
  intros H. induction l as [|x l IH]; cbn; [reflexivity|].
  rewrite (H x (or_introl eq_refl)), IH; [reflexivity|]. intros y Hy. apply H. right. exact Hy.
Qed.
Lemma nodup_flat_map {A B} (f : A -> list B) l :
  NoDup l -> (forall x, In x l -> NoDup (f x)) ->
  (forall x y z, In x l -> In y l -> In z (f x) -> In z (f y) -> x = y) -> NoDup (flat_map f l).
Proof.
  intros Hl. induction Hl as [|x l Hx Hl IH]; intros Hf Hd; cbn; [constructor|].
  apply nodup_app; [apply Hf; left; reflexivity | apply IH |].
  - intros y Hy. apply Hf. right. exact Hy.
  - intros a b z Ha Hb. apply Hd; right; assumption.
  - intros z Hz Hz'. apply in_flat_map in Hz'. destruct Hz' as [y [Hy Hz']].
    apply Hx. rewrite (Hd x y z); [exact Hy | left; reflexivity | right; exact Hy | exact Hz | exact Hz'].
Qed.
Lemma nodup_map_inj {A B} (f : A -> B) l : (forall x y, f x = f y -> x = y) -> NoDup l -> NoDup (map f l).
Proof.
  intros Hi H. induction H as [|x l Hx Hl IH]; cbn; constructor; [|exact IH].
  intros Hin. apply in_map_iff in Hin. destruct Hin as [y [Hy Hyl]]. apply Hi in Hy. subst. contradiction.
Qed.
Lemma sorted_filter {A} (R : A -> A -> Prop) f l : StronglySorted R l -> StronglySorted R (filter f l).
Proof.
  induction 1 as [|x l Hl IH Hx]; cbn; [constructor|].
  destruct (f x); [|exact IH]. constructor; [exact IH|].
  apply Forall_forall. intros y Hy. apply filter_In in Hy.
  rewrite Forall_forall in Hx. apply Hx. exact (proj1 Hy).
Qed.
Lemma sorted_seq n : forall s, StronglySorted lt (seq s n).
Proof.
  induction n as [|n IH]; intros s; cbn; constructor; [apply IH|].
  apply Forall_forall. intros y Hy. apply in_seq in Hy. lia.
Qed.
Lemma forall2_map_r {A B} (P : A -> B -> Prop) (f : A -> B) l :
  (forall x, In x l -> P x (f x)) -> Forall2 P l (map f l).
Proof.
  intros H. induction l as [|x l IH]; cbn; constructor; [apply H; left; reflexivity|].
  apply IH. intros y Hy. apply H. right. exact Hy.
Qed.
Lemma forall2_map_l {A B C} (P : B -> C -> Prop) (f : A -> B) l l' :
  Forall2 (fun x y => P (f x) y) l l' -> Forall2 P (map f l) l'.
Proof. induction 1; cbn; constructor; assumption. Qed.

(** One representative per class. *)
Fixpoint lead (E : nat -> nat -> bool) (l seen : list nat) : list nat :=
  match l with
  | [] => []
  | i :: l' => if existsb (E i) seen then lead E l' seen else i :: lead E l' (i :: seen)
  end.
Lemma lead_incl E l : forall seen i, In i (lead E l seen) -> In i l.
Proof.
  induction l as [|x l IH]; intros seen i; cbn; [tauto|].
  destruct (existsb (E x) seen); intros H.
  - right. exact (IH _ _ H).
  - destruct H as [H|H]; [left; exact H | right; exact (IH _ _ H)].
Qed.
Lemma lead_fresh E l : forall seen i s, In i (lead E l seen) -> In s seen -> E i s = false.
Proof.
  induction l as [|x l IH]; intros seen i s; cbn; [tauto|].
  destruct (existsb (E x) seen) eqn:Ex; intros H Hs; [exact (IH _ _ _ H Hs)|].
  destruct H as [<- |H]; [|exact (IH _ _ _ H (or_intror Hs))].
  destruct (E x s) eqn:Exs; [|reflexivity].
  exfalso. assert (Ht : existsb (E x) seen = true) by (apply existsb_exists; exists s; split; assumption). congruence.
Qed.
Section Classes.
  Context (E : nat -> nat -> bool) (K : list nat).
  Hypothesis refl : forall i, In i K -> E i i = true.
  Hypothesis sym : forall i j, In i K -> In j K -> E i j = true -> E j i = true.
  Hypothesis trans : forall i j k, In i K -> In j K -> In k K -> E i j = true -> E j k = true -> E i k = true.
  Lemma lead_nodup l : incl l K -> forall seen, NoDup (lead E l seen).
  Proof.
    induction l as [|x l IH]; intros Hl seen; cbn; [constructor|].
    assert (Hl' : incl l K) by (intros y Hy; apply Hl; right; exact Hy).
    destruct (existsb (E x) seen); [exact (IH Hl' _)|]. constructor; [|exact (IH Hl' _)].
    intros Hin. pose proof (lead_fresh E l (x :: seen) x x Hin (or_introl eq_refl)) as Hf.
    rewrite (refl x (Hl x (or_introl eq_refl))) in Hf. discriminate.
  Qed.
  Lemma lead_apart l : incl l K -> forall seen i j, In i (lead E l seen) -> In j (lead E l seen) -> E i j = true -> i = j.
  Proof.
    induction l as [|x l IH]; intros Hl seen i j; cbn; [tauto|].
    assert (Hl' : incl l K) by (intros y Hy; apply Hl; right; exact Hy).
    destruct (existsb (E x) seen); [exact (IH Hl' _ _ _)|].
    intros [<- |Hi] [<- |Hj] He; [reflexivity | | | exact (IH Hl' _ _ _ Hi Hj He)].
    - apply sym in He; [|apply Hl; left; reflexivity | apply Hl'; exact (lead_incl _ _ _ _ Hj)].
      rewrite (lead_fresh E l (x :: seen) j x Hj (or_introl eq_refl)) in He. discriminate.
    - rewrite (lead_fresh E l (x :: seen) i x Hi (or_introl eq_refl)) in He. discriminate.
  Qed.
  Lemma lead_covers l : incl l K -> forall seen, incl seen K -> forall i, In i l ->
    exists p, (In p (lead E l seen) \/ In p seen) /\ E i p = true.
  Proof.
    induction l as [|x l IH]; intros Hl seen Hs i; cbn; [tauto|].
    assert (Hl' : incl l K) by (intros y Hy; apply Hl; right; exact Hy).
    destruct (existsb (E x) seen) eqn:Ex; intros [<- |Hi].
    - apply existsb_exists in Ex. destruct Ex as [p [Hp He]]. exists p. split; [right; exact Hp | exact He].
    - exact (IH Hl' _ Hs _ Hi).
    - exists x. split; [left; left; reflexivity|]. apply refl, Hl. left. reflexivity.
    - assert (Hs' : incl (x :: seen) K)
        by (intros y [<- |Hy]; [apply Hl; left; reflexivity | exact (Hs _ Hy)]).
      destruct (IH Hl' _ Hs' _ Hi) as [p [[Hp|[Hp|Hp]] He]]; exists p; (split; [|exact He]).
      + left. right. exact Hp.
      + left. left. exact Hp.
      + right. exact Hp.
  Qed.
End Classes.
