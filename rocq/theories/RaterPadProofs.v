(** Padding and truncation of rated trajectories. *)
From Coq Require Import Qminmax Qabs.
From Verif Require Import Base ResultLib MonadLib ListLib RaterModel RaterSpec.
Open Scope list_scope.
Open Scope nat_scope.

Lemma nth_error_firstn' {A} (l : list A) : forall n k, k < n -> nth_error (firstn n l) k = nth_error l k.
Proof.
  induction l as [|a l IH]; intros [|n] [|k] H; try lia; try reflexivity. cbn. apply IH. lia.
Qed.
Lemma nth_error_repeat' {A} (a : A) n : forall k, k < n -> nth_error (repeat a n) k = Some a.
Proof. induction n as [|n IH]; intros [|k] H; try lia; [reflexivity|]. cbn. apply IH. lia. Qed.
Lemma rev_last {A} (l : list A) a m : rev l = a :: m -> nth_error l (length l - 1) = Some a.
Proof.
  intros H. assert (l = rev m ++ [a]) as -> by (rewrite <- (rev_involutive l), H; reflexivity).
  rewrite app_length. cbn [length]. rewrite nth_error_app2 by lia.
  replace (length (rev m) + 1 - 1 - length (rev m)) with 0 by lia. reflexivity.
Qed.

Lemma fit_fitted {A} n (l l' : list A) : fit n l = Ok l' -> fitted n l l'.
Proof.
  unfold fit. destruct (Nat.ltb_spec n (length l)) as [H|H].
  - intros E. apply Ok_inj in E. subst l'. split; [rewrite firstn_length; lia|].
    intros k Hk. rewrite nth_error_firstn' by exact Hk. f_equal. lia.
  - destruct (Nat.ltb_spec (length l) n) as [G|G].
    + destruct (rev l) as [|a m] eqn:E; [discriminate|]. intros E'. apply Ok_inj in E'. subst l'.
      split; [rewrite app_length, repeat_length; lia|]. intros k Hk.
      destruct (Nat.ltb_spec k (length l)) as [K|K].
      * rewrite nth_error_app1 by exact K. f_equal. lia.
      * rewrite nth_error_app2 by exact K. rewrite nth_error_repeat' by lia.
        rewrite <- (rev_last _ _ _ E). f_equal. lia.
    + intros E. apply Ok_inj in E. subst l'. split; [lia|]. intros k Hk. f_equal. lia.
Qed.
Lemma fit_succeeds {A} n (l : list A) : (exists l', fit n l = Ok l') <-> fit_ok n l.
Proof.
  unfold fit_ok. destruct l as [|a l].
  - unfold fit. cbn [length]. destruct n as [|n]; cbn.
    + split; [intros _; right; reflexivity|intros _; exists []; reflexivity].
    + split; [intros (l' & E); discriminate|intros [H|H]; [contradiction|discriminate]].
  - split; [intros _; left; discriminate|]. intros _. unfold fit.
    destruct (n <? length (a :: l)); [eexists; reflexivity|].
    destruct (length (a :: l) <? n); [|eexists; reflexivity].
    destruct (rev (a :: l)) as [|b m] eqn:E; [|eexists; reflexivity].
    exfalso. apply (f_equal (@length A)) in E. rewrite rev_length in E. discriminate.
Qed.

Lemma list_eq_nth {A} (l l' : list A) : length l = length l' ->
  (forall k, k < length l -> nth_error l k = nth_error l' k) -> l = l'.
Proof.
  revert l'. induction l as [|a l IH]; intros [|b l'] L H; try discriminate; [reflexivity|].
  assert (E := H 0 ltac:(cbn; lia)). cbn in E. inversion E; subst. f_equal. apply IH; [cbn in L; lia|].
  intros k Hk. exact (H (S k) ltac:(cbn; lia)).
Qed.
Lemma fitted_unique {A} n (l a b : list A) : fitted n l a -> fitted n l b -> a = b.
Proof.
  intros [La Ha] [Lb Hb]. apply list_eq_nth; [congruence|]. intros k Hk. rewrite La in Hk.
  rewrite Ha, Hb by exact Hk. reflexivity.
Qed.
Lemma fitted_in {A} n (l l' : list A) a : fitted n l l' -> In a l' -> In a (firstn n l).
Proof.
  intros [L H] I. apply In_nth_error in I. destruct I as (k & E).
  assert (K : k < n) by (rewrite <- L; apply nth_error_Some; rewrite E; discriminate).
  rewrite H in E by exact K.
  apply (nth_error_In (firstn n l) (Nat.min k (length l - 1))). rewrite nth_error_firstn' by lia. exact E.
Qed.
Lemma firstn_fitted_in {A} n (l l' : list A) a : fitted n l l' -> In a (firstn n l) -> In a l'.
Proof.
  intros [L H] I. apply In_nth_error in I. destruct I as (k & E).
  assert (K : k < length (firstn n l)) by (apply nth_error_Some; rewrite E; discriminate).
  rewrite firstn_length in K. rewrite nth_error_firstn' in E by lia.
  apply (nth_error_In l' k). rewrite H by lia. rewrite <- E. f_equal. lia.
Qed.

Lemma process_batch_inv steps count b b' : process_batch steps count b = Ok b' -> fitted_batch steps count b b'.
Proof.
  destruct b as [ts ls]. unfold process_batch. destruct (negb _) eqn:E0; [discriminate|]. intros E.
  dbind E ts' E1. dbind E ls' E2. dbind E fi E3. apply Ok_inj in E. subst b'.
  pose proof (fit_fitted _ _ _ E1) as F1. pose proof (fit_fitted _ _ _ E2) as F2.
  pose proof (mapM_length _ _ _ E3) as L. destruct F1 as [L1 H1].
  split; [exact F2|]. cbn [fst snd]. split; [congruence|]. intros k t' K.
  assert (Hk : k < length fi) by (apply nth_error_Some; rewrite K; discriminate).
  assert (X : exists t, nth_error ts' k = Some t /\ fit steps t = Ok t').
  { apply mapM_inv in E3. exact (Forall2_nth_r _ _ _ E3 k t' K). }
  destruct X as (t & X1 & X2). exists t. split; [|exact (fit_fitted _ _ _ X2)].
  rewrite <- X1, H1 by lia. reflexivity.
Qed.
Lemma process_batch_succeeds steps count b :
  (exists b', process_batch steps count b = Ok b') <-> batch_ok steps count b.
Proof.
  destruct b as [ts ls]. unfold process_batch, batch_ok. cbn [fst snd].
  destruct (Nat.eqb_spec (length ts) (length ls)) as [L|L]; cbn [negb].
  2:{ split; [intros (? & E); discriminate|intros (X & _); contradiction]. }
  split.
  - intros (b' & E). dbind E ts' E1. dbind E ls' E2. dbind E fi E3. split; [exact L|]. split.
    + apply fit_succeeds. exists ts'. exact E1.
    + intros t I. apply (firstn_fitted_in _ _ _ _ (fit_fitted _ _ _ E1)) in I.
      apply mapM_inv in E3. apply In_nth_error in I. destruct I as (k & K).
      destruct (Forall2_nth _ _ _ E3 k t K) as (t' & _ & F). apply fit_succeeds. exists t'. exact F.
  - intros (_ & C & H). destruct (proj2 (fit_succeeds count ts) C) as (ts' & E1). rewrite E1. cbn [bind].
    assert (C2 : fit_ok count ls).
    { destruct C as [C|C]; [left|right; exact C]. intros ->. destruct ts; [contradiction|discriminate]. }
    destruct (proj2 (fit_succeeds count ls) C2) as (ls' & ->). cbn [bind].
    assert (X : exists r, mapM (fit steps) ts' = Ok r).
    { assert (H' : forall t, In t ts' -> exists t', fit steps t = Ok t').
      { intros t I. apply fit_succeeds. apply H. exact (fitted_in _ _ _ _ (fit_fitted _ _ _ E1) I). }
      clear -H'. induction ts' as [|t ts' IH]; [exists []; reflexivity|]. cbn [mapM].
      destruct (H' t (or_introl eq_refl)) as (t' & ->). destruct IH as (r & ->); [intros u I; apply H'; right; exact I|].
      eexists. reflexivity. }
    destruct X as (r & ->). eexists. reflexivity.
Qed.

Lemma process_succeeds ts ls steps count :
  (exists r, process ts ls steps count = Ok r)
  <-> length ts = length ls /\ Forall (batch_ok steps count) (combine ts ls).
Proof.
  unfold process. destruct (Nat.eqb_spec (length ts) (length ls)) as [L|L]; cbn [negb].
  2:{ split; [intros (? & E); discriminate|intros (X & _); contradiction]. }
  generalize (combine ts ls). intros bs. split.
  - intros (r & E). split; [exact L|]. apply mapM_inv in E.
    induction E as [|b b' bs r H _ IH]; constructor; [|exact IH].
    apply process_batch_succeeds. exists b'. exact H.
  - intros [_ F]. induction F as [|b bs H _ IH]; [exists []; reflexivity|]. cbn [mapM].
    apply process_batch_succeeds in H. destruct H as (b' & ->). destruct IH as (r & ->). eexists. reflexivity.
Qed.
Lemma process_value ts ls steps count r : process ts ls steps count = Ok r ->
  Forall2 (fitted_batch steps count) (combine ts ls) r.
Proof.
  unfold process. destruct (negb _); [discriminate|]. intros E. apply mapM_inv in E.
  eapply Forall2_weaken; [|exact E]. intros b b' H. exact (process_batch_inv _ _ _ _ H).
Qed.
Lemma process_mismatch ts ls steps count : length ts <> length ls -> process ts ls steps count = Err ValueError.
Proof.
  intros H. unfold process. destruct (Nat.eqb_spec (length ts) (length ls)); [contradiction|reflexivity].
Qed.

(** The pairs of processed trajectories and labels are those of the first
    [count] inputs, whatever the padding. *)
Lemma fitted_pairs steps count b b' : fitted_batch steps count b b' -> length (fst b) = length (snd b) ->
  forall t' l, In (t', l) (combine (fst b') (snd b'))
  <-> exists t, In (t, l) (firstn count (combine (fst b) (snd b))) /\ fitted steps t t'.
Proof.
  intros ([L1 H1] & L2 & H2) L t' l.
  assert (Nc : forall {A B} (x : list A) (y : list B) k, nth_error (combine x y) k
     = match nth_error x k, nth_error y k with Some a, Some b => Some (a, b) | _, _ => None end).
  { intros A B. induction x as [|a x IH]; intros [|c y] [|k]; cbn; try reflexivity.
    - destruct (nth_error x k); reflexivity.
    - apply IH. }
  split.
  - intros I. apply In_nth_error in I. destruct I as (k & E). rewrite Nc in E.
    destruct (nth_error (fst b') k) as [u|] eqn:E1; [|discriminate].
    destruct (nth_error (snd b') k) as [m|] eqn:E2; [|discriminate].
    inversion E; subst u m. destruct (H2 k t' E1) as (t & T & F). exists t. split; [|exact F].
    assert (K : k < count) by (rewrite <- L1; apply nth_error_Some; rewrite E2; discriminate).
    rewrite H1 in E2 by exact K. rewrite <- L in E2.
    apply (nth_error_In _ (Nat.min k (length (fst b) - 1))). rewrite nth_error_firstn' by lia.
    rewrite Nc, T, E2. reflexivity.
  - intros (t & I & F). apply In_nth_error in I. destruct I as (k & E).
    assert (K : k < length (firstn count (combine (fst b) (snd b))))
      by (apply nth_error_Some; rewrite E; discriminate).
    rewrite firstn_length, combine_length, L, Nat.min_id in K. rewrite nth_error_firstn' in E by lia.
    rewrite Nc in E.
    destruct (nth_error (fst b) k) as [u|] eqn:E1; [|discriminate].
    destruct (nth_error (snd b) k) as [m|] eqn:E2; [|discriminate].
    inversion E; subst u m.
    assert (X : exists x, nth_error (fst b') k = Some x).
    { destruct (nth_error (fst b') k) eqn:N; [eexists; reflexivity|]. apply nth_error_None in N. lia. }
    destruct X as (x & X). destruct (H2 k x X) as (t0 & T0 & F0).
    replace (Nat.min k (length (fst b) - 1)) with k in T0 by lia. rewrite E1 in T0. inversion T0; subst t0.
    assert (x = t') by exact (fitted_unique _ _ _ _ F0 F). subst x.
    apply (nth_error_In _ k). rewrite Nc, X, H1 by lia.
    replace (Nat.min k (length (snd b) - 1)) with k by lia. rewrite E2. reflexivity.
Qed.
