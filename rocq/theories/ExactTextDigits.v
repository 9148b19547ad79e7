(** Digit lists. *)
From Coq Require Import ZArith List Lia.
From Verif Require Import Base ExactFloatModel ExactTextModel ExactTextSpec.
Import ListNotations.
Local Open Scope Z_scope.

Definition digit (c : Z) : Prop := 48 <= c <= 57.
Notation len l := (Z.of_nat (length l)).

Lemma digit_iff c : is_digit c = true <-> digit c.
Proof. unfold is_digit, digit. rewrite Bool.andb_true_iff, !Z.leb_le. reflexivity. Qed.
Lemma digits_ok_intro s : s <> [] -> Forall digit s -> digits_ok s = true.
Proof.
  intros H F. unfold digits_ok. destruct s as [|c s]; [contradiction|]. apply forallb_forall. intros x I.
  apply digit_iff. exact (proj1 (Forall_forall _ _) F x I).
Qed.

Lemma number_acc s : forall n, fold_left (fun n c => 10 * n + (c - 48)) s n = n * 10 ^ len s + number s.
Proof.
  unfold number. induction s as [|c s IH]; intros n; [cbn; lia|].
  cbn [fold_left length]. rewrite IH, (IH (10 * 0 + (c - 48))). rewrite Nat2Z.inj_succ, Z.pow_succ_r by lia.
  ring.
Qed.
Lemma number_app a b : number (a ++ b) = number a * 10 ^ len b + number b.
Proof. unfold number at 1. rewrite fold_left_app. fold (number a). apply number_acc. Qed.
Lemma number_one c : number [c] = c - 48.
Proof. unfold number. cbn [fold_left]. lia. Qed.
Lemma number_nil : number [] = 0.
Proof. reflexivity. Qed.
Lemma number_cons c s : number (c :: s) = (c - 48) * 10 ^ len s + number s.
Proof. change (c :: s) with ([c] ++ s). rewrite number_app, number_one. reflexivity. Qed.
Lemma number_range s : Forall digit s -> 0 <= number s < 10 ^ len s.
Proof.
  induction s as [|c s IH]; intros F; [cbn; lia|]. inversion F as [|? ? D F']; subst. specialize (IH F').
  rewrite number_cons. cbn [length]. rewrite Nat2Z.inj_succ, Z.pow_succ_r by lia. unfold digit in D. nia.
Qed.
Lemma number_zeros k : number (repeat 48 k) = 0.
Proof. induction k as [|k IH]; [reflexivity|]. cbn [repeat]. rewrite number_cons, IH. lia. Qed.
Lemma digits_zeros k : Forall digit (repeat 48 k).
Proof. induction k; constructor; [unfold digit; lia|assumption]. Qed.

(** ** Decimal digits *)

Lemma dec_rev_spec f : forall n, 0 <= n < 2 ^ Z.of_nat f ->
  Forall digit (rev (dec_rev f n)) /\ number (rev (dec_rev f n)) = n
  /\ (0 < n -> dec_rev f n <> [] /\ 10 ^ (len (dec_rev f n) - 1) <= n).
Proof.
  induction f as [|f IH]; intros n H.
  - cbn in H. assert (n = 0) by lia. subst n. split; [constructor|]. split; [reflexivity|lia].
  - cbn [dec_rev]. destruct (Z.eqb_spec n 0) as [->|Hn].
    + split; [constructor|]. split; [reflexivity|lia].
    + rewrite Nat2Z.inj_succ, Z.pow_succ_r in H by lia.
      pose proof (Z.div_mod n 10 ltac:(lia)) as D. pose proof (Z.mod_pos_bound n 10 ltac:(lia)) as B.
      destruct (IH (n / 10)) as (I1 & I2 & I3); [lia|]. cbn [rev]. split; [|split].
      * apply Forall_app. split; [exact I1|]. constructor; [unfold digit, chr0; lia|constructor].
      * rewrite number_app, I2, number_one. unfold chr0. change (10 ^ len [48 + n mod 10]) with 10. lia.
      * intros _. split; [discriminate|]. cbn [length]. rewrite Nat2Z.inj_succ.
        replace (Z.succ (len (dec_rev f (n / 10))) - 1) with (len (dec_rev f (n / 10))) by lia.
        destruct (Z.eq_dec (n / 10) 0) as [E|E].
        -- rewrite E. destruct f; cbn [dec_rev length]; [lia|]. rewrite Z.eqb_refl. cbn. lia.
        -- destruct I3 as [J1 J2]; [lia|].
           assert (X : len (dec_rev f (n / 10)) = Z.succ (len (dec_rev f (n / 10)) - 1)) by lia.
           destruct (dec_rev f (n / 10)) as [|c r] eqn:Er; [contradiction|].
           assert (0 <= len (c :: r) - 1) by (cbn [length]; lia).
           rewrite X, Z.pow_succ_r by assumption. lia.
Qed.
Lemma dec_spec n : 0 < n -> Forall digit (dec n) /\ number (dec n) = n /\ dec n <> [] /\ 10 ^ (len (dec n) - 1) <= n < 10 ^ len (dec n).
Proof.
  intros H. unfold dec. pose proof (Z.log2_nonneg n) as L. pose proof (proj2 (Z.log2_spec n H)) as U.
  destruct (dec_rev_spec (Z.to_nat (Z.log2 n + 1)) n) as (A & B & C).
  { rewrite Z2Nat.id by lia. rewrite <- Z.add_1_r in U. lia. }
  destruct (C H) as [C1 C2]. split; [exact A|]. split; [exact B|]. split.
  - intros E. apply (f_equal (@rev Z)) in E. rewrite rev_involutive in E. cbn in E. contradiction.
  - rewrite rev_length. split; [exact C2|]. pose proof (number_range _ A) as R. rewrite B, rev_length in R. lia.
Qed.
Lemma dec0_spec n : 0 <= n -> digits_ok (dec0 n) = true /\ number (dec0 n) = n /\ Forall digit (dec0 n).
Proof.
  intros H. unfold dec0. destruct (Z.eqb_spec n 0) as [->|Hn].
  - split; [reflexivity|]. split; [reflexivity|]. constructor; [unfold digit, chr0; lia|constructor].
  - destruct (dec_spec n) as (A & B & C & _); [lia|]. split; [apply digits_ok_intro; assumption|]. split; assumption.
Qed.

(** ** Incrementing *)

Lemma increment_rev_spec ds : Forall digit ds ->
  Forall digit (increment_rev ds) /\ number (rev (increment_rev ds)) = number (rev ds) + 1
  /\ (length (increment_rev ds) = length ds
      \/ (length (increment_rev ds) = S (length ds) /\ number (rev (increment_rev ds)) = 10 ^ len ds)).
Proof.
  induction ds as [|c r IH]; intros F; cbn [increment_rev].
  - split; [constructor; [unfold digit, chr1; lia|constructor]|]. split; [reflexivity|]. right. split; reflexivity.
  - inversion F as [|? ? D F']; subst. unfold digit in D. destruct (Z.ltb_spec c chr9) as [H|H]; unfold chr9 in H.
    + split; [constructor; [unfold digit; lia|exact F']|]. cbn [rev]. rewrite !number_app, !number_one.
      split; [change (10 ^ len [c + 1]) with (10 ^ len [c]); lia|]. left. reflexivity.
    + destruct (IH F') as (A & B & C). assert (c = 57) by lia. subst c.
      split; [constructor; [unfold digit, chr0; lia|exact A]|]. cbn [rev]. rewrite !number_app, !number_one, B.
      change (10 ^ len [chr0]) with 10. change (10 ^ len [57]) with 10. unfold chr0.
      split; [lia|]. cbn [length]. destruct C as [C|[C1 C2]]; [left; lia|]. right. split; [lia|].
      rewrite Nat2Z.inj_succ, Z.pow_succ_r by lia. lia.
Qed.
Lemma increment_spec ds : Forall digit ds ->
  Forall digit (increment_digits ds) /\ number (increment_digits ds) = number ds + 1
  /\ (length (increment_digits ds) = length ds
      \/ (length (increment_digits ds) = S (length ds) /\ number (increment_digits ds) = 10 ^ len ds)).
Proof.
  intros F. unfold increment_digits. destruct (increment_rev_spec (rev ds)) as (A & B & C); [apply Forall_rev; exact F|].
  split; [apply Forall_rev; exact A|]. rewrite rev_involutive in B. split; [exact B|].
  rewrite !rev_length in *. exact C.
Qed.

(** ** Stripping *)

Lemma strip_rev_spec ds : exists k, ds = repeat 48 k ++ strip_rev ds /\ hd 0 (strip_rev ds) <> 48.
Proof.
  induction ds as [|c r (k & E & H)]; [exists 0%nat; split; [reflexivity|cbn; lia]|]. cbn [strip_rev].
  destruct (Z.eqb_spec c chr0) as [->|N].
  - exists (S k). split; [cbn [repeat app]; unfold chr0; f_equal; exact E|exact H].
  - exists 0%nat. split; [reflexivity|exact N].
Qed.
Lemma rev_repeat {A} (a : A) k : rev (repeat a k) = repeat a k.
Proof.
  assert (S : forall j, repeat a j ++ [a] = a :: repeat a j) by (induction j as [|j IH]; [reflexivity|cbn; rewrite IH; reflexivity]).
  induction k as [|k IH]; [reflexivity|]. cbn [repeat rev]. rewrite IH. apply S.
Qed.
Lemma last_rev_hd {A} (d : A) l : last l d = hd d (rev l).
Proof.
  destruct l as [|a l] using rev_ind; [reflexivity|]. rewrite last_last, rev_app_distr. reflexivity.
Qed.
Lemma strip_spec ds : exists k, ds = strip ds ++ repeat 48 k /\ last (strip ds) 0 <> 48.
Proof.
  destruct (strip_rev_spec (rev ds)) as (k & E & H). exists k. unfold strip. split.
  - apply (f_equal (@rev Z)) in E. rewrite rev_involutive, rev_app_distr, rev_repeat in E. exact E.
  - rewrite last_rev_hd, rev_involutive. exact H.
Qed.
Lemma strip_number ds : Forall digit ds -> 0 < number ds ->
  Forall digit (strip ds) /\ strip ds <> []
  /\ (length (strip ds) <= length ds)%nat
  /\ number ds = number (strip ds) * 10 ^ (len ds - len (strip ds))
  /\ number (strip ds) mod 10 <> 0.
Proof.
  intros F P. destruct (strip_spec ds) as (k & E & H).
  assert (F' : Forall digit (strip ds)) by (rewrite E in F; apply Forall_app in F; exact (proj1 F)).
  assert (N : number ds = number (strip ds) * 10 ^ Z.of_nat k).
  { rewrite E at 1. rewrite number_app, number_zeros, repeat_length. lia. }
  assert (L : length ds = (length (strip ds) + k)%nat) by (rewrite E at 1; rewrite app_length, repeat_length; reflexivity).
  assert (Ne : strip ds <> []) by (intros E0; rewrite E0 in N; cbn in N; lia).
  split; [exact F'|]. split; [exact Ne|]. split; [lia|]. split.
  - rewrite N at 1. f_equal. f_equal. lia.
  - destruct (strip ds) as [|c l _] using rev_ind; [contradiction|]. rewrite last_last in H.
    apply Forall_app in F'. destruct F' as [_ F']. inversion F' as [|? ? D _]; subst. unfold digit in D.
    rewrite number_app, number_one. change (10 ^ len [c]) with 10. rewrite Z.add_comm, Z_mod_plus_full, Z.mod_small by lia. lia.
Qed.

(** ** Cutting *)
Lemma some_nonzero_spec s : Forall digit s -> some_nonzero s = negb (number s =? 0).
Proof.
  induction s as [|c s IH]; intros F; [reflexivity|]. inversion F as [|? ? D F']; subst. unfold digit in D.
  unfold some_nonzero in *. cbn [existsb]. rewrite (IH F'). rewrite number_cons. pose proof (number_range s F') as R.
  assert (P : 0 < 10 ^ len s) by (apply Z.pow_pos_nonneg; lia). unfold chr1, chr9.
  destruct (Z.leb_spec 49 c), (Z.leb_spec c 57); cbn [andb orb]; try lia.
  - symmetry. apply Bool.negb_true_iff, Z.eqb_neq. nia.
  - assert (c = 48) by lia. subst c. replace ((48 - 48) * 10 ^ len s + number s) with (number s) by lia. reflexivity.
Qed.
Lemma cut ds k : (k < length ds)%nat ->
  ds = firstn k ds ++ nth k ds 0 :: skipn (k + 1) ds.
Proof.
  revert k. induction ds as [|c ds IH]; intros k H; [cbn in H; lia|]. destruct k as [|k]; [reflexivity|].
  cbn [firstn nth skipn app Nat.add]. f_equal. apply IH. cbn in H. lia.
Qed.
Lemma firstn_last ds k : (0 < k <= length ds)%nat -> exists l, firstn k ds = l ++ [nth (k - 1) ds 0].
Proof.
  revert k. induction ds as [|c ds IH]; intros k H; [cbn in H; lia|]. destruct k as [|[|k]]; [lia|exists []; reflexivity|].
  destruct (IH (S k)) as (l & E); [cbn in *; lia|]. exists (c :: l). rewrite firstn_cons, E.
  cbn [nth app Nat.sub]. rewrite Nat.sub_0_r. reflexivity.
Qed.
