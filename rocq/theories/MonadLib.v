(** Inversion of the error monad. *)
From Verif Require Import Base ResultLib ListLib.

Lemma bind_inv {A B} (x : result A) (f : A -> result B) b :
  bind x f = Ok b -> exists a, x = Ok a /\ f a = Ok b.
Proof. destruct x as [a|e]; cbn [bind]; intros H; [exists a; auto|discriminate]. Qed.

Ltac dbind H x E := apply bind_inv in H; destruct H as (x & E & H).

Lemma mapM_Forall2 {A B} (f : A -> result B) l r :
  Forall2 (fun a b => f a = Ok b) l r -> mapM f l = Ok r.
Proof.
  induction 1 as [|a b l r Hab H IH]; cbn [mapM]; [reflexivity|].
  rewrite Hab. cbn [bind]. rewrite IH. reflexivity.
Qed.

Lemma Forall2_nth {A B} (R : A -> B -> Prop) l r : Forall2 R l r ->
  forall k a, nth_error l k = Some a -> exists b, nth_error r k = Some b /\ R a b.
Proof.
  induction 1 as [|a b l r Hab H IH]; intros k a' Hk.
  - destruct k; discriminate.
  - destruct k as [|k]; cbn [nth_error] in *.
    + injection Hk as <-. exists b. auto.
    + auto.
Qed.

Lemma Forall2_nth_r {A B} (R : A -> B -> Prop) l r : Forall2 R l r ->
  forall k b, nth_error r k = Some b -> exists a, nth_error l k = Some a /\ R a b.
Proof.
  induction 1 as [|a b l r Hab H IH]; intros k b' Hk.
  - destruct k; discriminate.
  - destruct k as [|k]; cbn [nth_error] in *.
    + injection Hk as <-. exists a. auto.
    + auto.
Qed.

Lemma Forall2_map_l {A B C} (f : A -> B) (R : B -> C -> Prop) l r :
  Forall2 (fun a c => R (f a) c) l r -> Forall2 R (map f l) r.
Proof. induction 1; cbn [map]; constructor; auto. Qed.

Lemma Forall2_exists {A B} (R : A -> B -> Prop) l :
  (forall a, In a l -> exists b, R a b) -> exists r, Forall2 R l r.
Proof.
  induction l as [|a l IH]; intros H.
  - exists []. constructor.
  - destruct (H a (or_introl eq_refl)) as (b & Hb).
    destruct IH as (r & Hr); [intros c Hc; apply H; now right|].
    exists (b :: r). constructor; auto.
Qed.

Lemma Forall2_weaken {A B} (R S : A -> B -> Prop) l r :
  (forall a b, R a b -> S a b) -> Forall2 R l r -> Forall2 S l r.
Proof. intros H; induction 1; constructor; auto. Qed.

Lemma nth_error_map' {A B} (f : A -> B) l k :
  nth_error (map f l) k = option_map f (nth_error l k).
Proof. revert k; induction l as [|a l IH]; intros [|k]; cbn [map nth_error option_map]; auto. Qed.
