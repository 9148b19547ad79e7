(** Loops over the error monad. *)
From Verif Require Import Base.

Fixpoint mapM {A B} (f : A -> result B) (l : list A) : result (list B) :=
  match l with
  | [] => Ok []
  | a :: l' => do b <- f a; do bs <- mapM f l'; Ok (b :: bs)
  end.

Fixpoint foldM {A S} (f : S -> A -> result S) (l : list A) (s : S) : result S :=
  match l with
  | [] => Ok s
  | a :: l' => do s' <- f s a; foldM f l' s'
  end.

Lemma mapM_ok {A B} (f : A -> result B) (g : A -> B) l :
  (forall a, In a l -> f a = Ok (g a)) -> mapM f l = Ok (map g l).
Proof.
  induction l as [|a l IH]; intros H; cbn [mapM map]; [reflexivity|].
  rewrite (H a (or_introl eq_refl)). cbn [bind].
  rewrite IH by (intros b Hb; apply H; now right). reflexivity.
Qed.

Lemma foldM_ok {A S} (f : S -> A -> result S) (g : S -> A -> S) l : forall s,
  (forall s a, In a l -> f s a = Ok (g s a)) -> foldM f l s = Ok (fold_left g l s).
Proof.
  induction l as [|a l IH]; intros s H; cbn [foldM fold_left]; [reflexivity|].
  rewrite (H s a (or_introl eq_refl)). cbn [bind].
  apply IH. intros s' b Hb. apply H. now right.
Qed.

Lemma mapM_length {A B} (f : A -> result B) l : forall r, mapM f l = Ok r -> length r = length l.
Proof.
  induction l as [|a l IH]; intros r; cbn [mapM].
  - intros [= <-]. reflexivity.
  - destruct (f a) as [b|e]; cbn [bind]; [|discriminate].
    destruct (mapM f l) as [bs|e] eqn:E; cbn [bind]; [|discriminate].
    intros [= <-]. simpl. now rewrite (IH bs eq_refl).
Qed.

Lemma mapM_inv {A B} (f : A -> result B) l : forall r, mapM f l = Ok r ->
  Forall2 (fun a b => f a = Ok b) l r.
Proof.
  induction l as [|a l IH]; intros r; cbn [mapM].
  - intros [= <-]. constructor.
  - destruct (f a) as [b|e] eqn:Ea; cbn [bind]; [|discriminate].
    destruct (mapM f l) as [bs|e] eqn:E; cbn [bind]; [|discriminate].
    intros [= <-]. constructor; auto.
Qed.
