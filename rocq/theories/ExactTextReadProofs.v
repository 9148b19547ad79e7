(** Reading back what is printed. *)
From Coq Require Import ZArith QArith Qabs Qpower List Lqa Lia.
From Verif Require Import Base ExactFloatModel ExactFloatSpec ExactFloatLib ExactFloatProofs
  ExactTextModel ExactTextSpec ExactTextDigits ExactTextProofs.
Import ListNotations.
Local Open Scope Z_scope.

Lemma split_found c l r : ~ In c l -> split_at c (l ++ c :: r) = (l, Some r).
Proof.
  induction l as [|x l IH]; intros H; cbn [app split_at].
  - rewrite Z.eqb_refl. reflexivity.
  - destruct (Z.eqb_spec x c) as [->|_]; [exfalso; apply H; left; reflexivity|].
    rewrite IH; [reflexivity|]. intros I. apply H. right. exact I.
Qed.
Lemma split_none c l : ~ In c l -> split_at c l = (l, None).
Proof.
  induction l as [|x l IH]; intros H; cbn [split_at]; [reflexivity|].
  destruct (Z.eqb_spec x c) as [->|_]; [exfalso; apply H; left; reflexivity|].
  rewrite IH; [reflexivity|]. intros I. apply H. right. exact I.
Qed.
Lemma digits_notin c l : Forall digit l -> ~ digit c -> ~ In c l.
Proof. intros F H I. apply H. exact (proj1 (Forall_forall _ _) F c I). Qed.
Lemma e_not_digit : ~ digit 101. Proof. unfold digit. lia. Qed.
Lemma dot_not_digit : ~ digit 46. Proof. unfold digit. lia. Qed.

(** The texts printed, by parts. *)
Definition assembled (i : list Z) (f : option (list Z)) (x : option Z) : list Z :=
  i ++ (match f with None => [] | Some f => 46 :: f end)
    ++ (match x with None => [] | Some x => exponent_text x end).

Lemma read_exponent_text x : read_exponent (tl (exponent_text x)) = Some x.
Proof.
  unfold exponent_text. cbn [tl]. destruct (dec0_spec (Z.abs x)) as (A & B & _); [lia|].
  destruct (Z.ltb_spec x 0).
  - cbv [chr_minus]. cbn [read_exponent]. rewrite A, B. f_equal. lia.
  - cbv [chr_plus]. cbn [read_exponent]. rewrite A, B. f_equal. lia.
Qed.

Section Assembled.
Variables (i : list Z) (f : option (list Z)) (x : option Z).
Hypothesis Fi : Forall digit i.
Hypothesis Ni : i <> [].
Hypothesis Ff : forall f', f = Some f' -> Forall digit f' /\ f' <> [].

Lemma mantissa_no_e : ~ In 101 (i ++ match f with None => [] | Some f => 46 :: f end).
Proof using Fi Ff.
  intros I. apply in_app_or in I. destruct I as [I|I]; [exact (digits_notin _ _ Fi e_not_digit I)|].
  destruct f as [f'|]; [|exact I]. destruct (Ff f' eq_refl) as [F' _]. destruct I as [I|I]; [lia|].
  exact (digits_notin _ _ F' e_not_digit I).
Qed.
Lemma split_e : split_at 101 (assembled i f x)
  = (i ++ match f with None => [] | Some f => 46 :: f end,
     match x with None => None | Some x => Some (tl (exponent_text x)) end).
Proof using Fi Ff.
  unfold assembled. destruct x as [x'|].
  - rewrite app_assoc. unfold exponent_text at 1. cbv [chr_e]. rewrite (split_found 101 _ _ mantissa_no_e). reflexivity.
  - rewrite !app_nil_r. apply split_none. exact mantissa_no_e.
Qed.
Lemma split_dot : split_at 46 (i ++ match f with None => [] | Some f => 46 :: f end) = (i, f).
Proof using Fi Ff.
  destruct f as [f'|].
  - apply split_found. exact (digits_notin _ _ Fi dot_not_digit).
  - rewrite app_nil_r. apply split_none. exact (digits_notin _ _ Fi dot_not_digit).
Qed.
Lemma read_assembled : exists q, read_unsigned (assembled i f x) = Some q
  /\ (q == inject_Z (number (i ++ match f with None => [] | Some f => f end))
          * pow10 (match x with None => 0 | Some x => x end - len (match f with None => [] | Some f => f end)%Z))%Q.
Proof using Fi Ff Ni.
  unfold read_unsigned. rewrite split_e, split_dot.
  assert (E : match (match x with None => None | Some x => Some (tl (exponent_text x)) end) with None => Some 0 | Some y => read_exponent y end
     = Some (match x with None => 0 | Some x => x end)).
  { destruct x as [x'|]; [apply read_exponent_text|reflexivity]. }
  rewrite E. rewrite (digits_ok_intro i Ni Fi). cbn [andb].
  assert (E2 : match f with None => true | Some f => digits_ok f end = true).
  { destruct f as [f'|]; [|reflexivity]. destruct (Ff f' eq_refl) as [A B]. exact (digits_ok_intro f' B A). }
  rewrite E2. eexists. split; [reflexivity|]. reflexivity.
Qed.
Lemma tidy_assembled : (i = [48] \/ hd 48 i <> 48) -> (forall f', f = Some f' -> last f' 48 <> 48) ->
  tidy_unsigned (assembled i f x).
Proof using Fi Ff.
  intros A B. unfold tidy_unsigned. rewrite split_e, split_dot. split; [exact A|exact B].
Qed.
Lemma e_in_assembled : In 101 (assembled i f x) <-> x <> None.
Proof using Fi Ff.
  unfold assembled. rewrite app_assoc, in_app_iff. split.
  - intros [I|I]; [exfalso; exact (mantissa_no_e I)|]. destruct x; [discriminate|destruct I].
  - intros H. right. destruct x as [x'|]; [|contradiction]. left. reflexivity.
Qed.
Lemma assembled_head : exists c r, assembled i f x = c :: r /\ digit c.
Proof using Fi Ni.
  unfold assembled. destruct i as [|c i']; [contradiction|]. exists c. eexists. split; [reflexivity|].
  inversion Fi; assumption.
Qed.
End Assembled.

Lemma read_digit c r : digit c -> read (c :: r) = read_unsigned (c :: r).
Proof.
  intros H. unfold digit in H.
  assert (c = 48 \/ c = 49 \/ c = 50 \/ c = 51 \/ c = 52 \/ c = 53 \/ c = 54 \/ c = 55 \/ c = 56 \/ c = 57) as D by lia.
  destruct D as [->|[->|[->|[->|[->|[->|[->|[->|[->| ->]]]]]]]]]; reflexivity.
Qed.
Lemma tidy_digit c r : digit c -> tidy (c :: r) = tidy_unsigned (c :: r).
Proof.
  intros H. unfold digit in H.
  assert (c = 48 \/ c = 49 \/ c = 50 \/ c = 51 \/ c = 52 \/ c = 53 \/ c = 54 \/ c = 55 \/ c = 56 \/ c = 57) as D by lia.
  destruct D as [->|[->|[->|[->|[->|[->|[->|[->|[->| ->]]]]]]]]]; reflexivity.
Qed.

(** ** The layout *)
Lemma leading_hd ds : Forall digit ds -> ds <> [] -> leading ds -> hd 48 ds <> 48.
Proof.
  intros F N L. destruct ds as [|c ds]; [contradiction|]. cbn [hd]. intros ->. unfold leading in L.
  rewrite number_cons in L. inversion F as [|? ? _ F']; subst. pose proof (number_range ds F') as R.
  cbn [length] in L. rewrite Nat2Z.inj_succ in L. replace (Z.succ (len ds) - 1) with (len ds) in L by lia. lia.
Qed.
Lemma mod_last ds : Forall digit ds -> number ds mod 10 <> 0 -> last ds 48 <> 48.
Proof.
  intros F H E. destruct ds as [|c l _] using rev_ind; [apply H; reflexivity|]. rewrite last_last in E. subst c.
  apply H. rewrite number_app, number_one. change (10 ^ len [48]) with 10. rewrite Z.sub_diag, Z.add_0_r. apply Z_mod_mult.
Qed.
Lemma last_app_nonempty {A} (d : A) a b : b <> [] -> last (a ++ b) d = last b d.
Proof.
  intros H. destruct b as [|c l _] using rev_ind; [contradiction|]. rewrite app_assoc, !last_last. reflexivity.
Qed.

Lemma layout_spec ds x m : Forall digit ds -> ds <> [] -> leading ds -> number ds mod 10 <> 0 -> 1 <= m ->
  exists i f ex, layout ds x m = assembled i f ex
    /\ Forall digit i /\ i <> [] /\ (forall f', f = Some f' -> Forall digit f' /\ f' <> [])
    /\ (i = [48] \/ hd 48 i <> 48) /\ (forall f', f = Some f' -> last f' 48 <> 48)
    /\ (inject_Z (number (i ++ match f with None => [] | Some f => f end))
          * pow10 (match ex with None => 0 | Some x => x end - len (match f with None => [] | Some f => f end)%Z)
        == inject_Z (number ds) * pow10 (x - len ds))%Q
    /\ (ex <> None <-> x <= -4 \/ m < x).
Proof.
  intros F N L M Hm. pose proof (leading_hd ds F N L) as Hh. pose proof (mod_last ds F M) as Hl.
  unfold layout. destruct ((x <=? -4) || (m <? x)) eqn:E.
  - apply Bool.orb_true_iff in E. rewrite Z.leb_le, Z.ltb_lt in E.
    destruct ds as [|d [|d2 r]]; [contradiction| |].
    + exists [d], None, (Some (x - 1)). split; [reflexivity|]. split; [exact F|]. split; [discriminate|].
      split; [discriminate|]. split; [right; exact Hh|]. split; [discriminate|]. split.
      * rewrite app_nil_r. cbn [length]. replace (x - 1 - Z.of_nat 0) with (x - Z.of_nat 1) by lia. reflexivity.
      * split; [intros _; exact E|intros _; discriminate].
    + inversion F as [|? ? D F']; subst. exists [d], (Some (d2 :: r)), (Some (x - 1)). split; [reflexivity|].
      split; [constructor; [exact D|constructor]|]. split; [discriminate|].
      split; [intros f' Ef; inversion Ef; subst; split; [exact F'|discriminate]|].
      split; [right; exact Hh|]. split.
      * intros f' Ef. inversion Ef; subst f'. change (d :: d2 :: r) with ([d] ++ (d2 :: r)) in Hl.
        rewrite last_app_nonempty in Hl by discriminate. exact Hl.
      * split; [|split; [intros _; exact E|intros _; discriminate]].
        change ([d] ++ d2 :: r) with (d :: d2 :: r).
        replace (x - 1 - len (d2 :: r)) with (x - len (d :: d2 :: r)) by (cbn [length]; lia). reflexivity.
  - apply Bool.orb_false_iff in E. destruct E as [E1 E2]. apply Z.leb_gt in E1. apply Z.ltb_ge in E2.
    destruct (Z.ltb_spec 0 x) as [X|X].
    + destruct (Z.leb_spec (len ds) x) as [G|G].
      * exists (ds ++ repeat chr0 (Z.to_nat (x - len ds))), None, None.
        split; [unfold assembled; rewrite !app_nil_r; reflexivity|].
        split; [apply Forall_app; split; [exact F|apply digits_zeros]|].
        split; [intros E; apply app_eq_nil in E; destruct E; contradiction|].
        split; [discriminate|].
        split; [right; destruct ds; [contradiction|exact Hh]|].
        split; [discriminate|]. split; [|split; [intros H; contradiction|lia]].
        rewrite app_nil_r, number_app. unfold chr0. rewrite number_zeros, repeat_length, Z2Nat.id, Z.add_0_r by lia.
        cbn [length]. change (pow10 (0 - Z.of_nat 0)) with 1%Q. rewrite inject_Z_mult, <- (pow10_Z (x - len ds)) by lia. ring.
      * assert (K : (0 < Z.to_nat x < length ds)%nat) by lia.
        assert (S : ds = firstn (Z.to_nat x) ds ++ skipn (Z.to_nat x) ds) by (symmetry; apply firstn_skipn).
        assert (Sn : skipn (Z.to_nat x) ds <> []).
        { intros E. apply (f_equal (@length Z)) in E. rewrite skipn_length in E. cbn in E. lia. }
        assert (Fs : Forall digit (firstn (Z.to_nat x) ds) /\ Forall digit (skipn (Z.to_nat x) ds)).
        { apply Forall_app. rewrite <- S. exact F. }
        exists (firstn (Z.to_nat x) ds), (Some (skipn (Z.to_nat x) ds)), None.
        split; [unfold assembled; rewrite app_nil_r; reflexivity|].
        split; [exact (proj1 Fs)|].
        split; [destruct ds; [contradiction|]; destruct (Z.to_nat x); [lia|discriminate]|].
        split; [intros f' Ef; inversion Ef; subst f'; split; [exact (proj2 Fs)|exact Sn]|].
        split; [right; destruct ds; [contradiction|]; destruct (Z.to_nat x); [lia|exact Hh]|].
        split; [intros f' Ef; inversion Ef; subst f'; rewrite S in Hl; rewrite last_app_nonempty in Hl by exact Sn; exact Hl|].
        split; [|split; [intros H; contradiction|lia]].
        rewrite <- S, skipn_length. replace (0 - Z.of_nat (length ds - Z.to_nat x)) with (x - len ds) by lia. reflexivity.
    + exists [48], (Some (repeat chr0 (Z.to_nat (- x)) ++ ds)), None.
      split; [unfold assembled; rewrite app_nil_r; reflexivity|].
      split; [constructor; [unfold digit; lia|constructor]|]. split; [discriminate|].
      split.
      { intros f' Ef. inversion Ef; subst f'. split; [apply Forall_app; split; [apply digits_zeros|exact F]|].
        intros E. apply app_eq_nil in E. destruct E. contradiction. }
      split; [left; reflexivity|].
      split; [intros f' Ef; inversion Ef; subst f'; rewrite last_app_nonempty by exact N; exact Hl|].
      split; [|split; [intros H; contradiction|lia]].
      cbn [app]. rewrite number_cons, number_app. unfold chr0. rewrite number_zeros.
      rewrite app_length, repeat_length, Nat2Z.inj_add, Z2Nat.id by lia.
      replace (0 - (- x + len ds)) with (x - len ds) by lia.
      replace ((48 - 48) * 10 ^ (- x + len ds) + (0 * 10 ^ len ds + number ds)) with (number ds) by ring. reflexivity.
Qed.

(** ** The whole text of a normal number *)
Definition signed (s : Z) (q : Q) : Q := if s <? 0 then (- q)%Q else q.

Lemma text_spec a d k : canonical a -> is_normal a = true -> 1 <= d -> decades (Qabs (value a)) k ->
  exists n, printed (Qabs (value a) * pow10 (d - k)) n /\ 10 ^ (d - 1) <= n /\ n <= 10 ^ d
    /\ reads (to_string_with_max_digits a d) (signed (sign a) (inject_Z n * pow10 (k - d)))
    /\ tidy (to_string_with_max_digits a d)
    /\ (In 101 (to_string_with_max_digits a d) <->
        (inject_Z n * pow10 (k - d) < pow10 (-4))%Q \/ (pow10 d <= inject_Z n * pow10 (k - d))%Q)
    /\ (forall c, In c (to_string_with_max_digits a d) -> c <> 60).
Proof.
  intros C N Hd K. destruct (digits_spec a d k C N Hd K) as (n & Pr & N1 & N2 & R).
  exists n. split; [exact Pr|]. split; [exact N1|]. split; [exact N2|].
  unfold to_string_with_max_digits. rewrite N. cbn [negb].
  destruct (get_decimal_digits a d) as [ds x]. destruct R as (F & Ne & L & Le & M & V).
  destruct (layout_spec ds x d F Ne L M Hd) as (i & f & ex & E & Fi & Ni & Ff & T1 & T2 & V' & X).
  rewrite E. destruct (read_assembled i f ex Fi Ni Ff) as (q & Rq & Eq).
  assert (Q1 : (q == inject_Z n * pow10 (k - d))%Q) by (rewrite Eq, V', V; reflexivity).
  destruct (assembled_head i f ex Fi Ni) as (c & r & Ec & Dc).
  split; [|split; [|split]].
  - unfold signed, reads. destruct (sign a <? 0).
    + cbn [app]. exists (- q)%Q. split; [cbn [read chr_minus]; rewrite Rq; reflexivity|]. rewrite Q1. reflexivity.
    + cbn [app]. exists q. split; [rewrite Ec, read_digit, <- Ec by exact Dc; exact Rq|exact Q1].
  - pose proof (tidy_assembled i f ex Fi Ff T1 T2) as T. destruct (sign a <? 0); cbn [app].
    + exact T.
    + rewrite Ec, tidy_digit, <- Ec by exact Dc. exact T.
  - assert (A : In 101 ((if sign a <? 0 then [chr_minus] else []) ++ assembled i f ex) <-> In 101 (assembled i f ex)).
    { rewrite in_app_iff. split; [|intros I; right; exact I]. intros [I|I]; [|exact I].
      destruct (sign a <? 0); [destruct I as [I|[]]; discriminate|destruct I]. }
    rewrite A, (e_in_assembled i f ex Fi Ff), X. rewrite <- V.
    pose proof (number_range ds F) as Rn. unfold leading in L.
    assert (S1 : 1 <= len ds) by (destruct ds; [contradiction|cbn [length]; lia]).
    assert (B1 : (pow10 (x - 1) <= inject_Z (number ds) * pow10 (x - len ds))%Q).
    { replace (x - 1) with ((len ds - 1) + (x - len ds)) by lia. rewrite pow10_plus, (pow10_Z (len ds - 1)) by lia.
      apply Qmult_le_compat_r; [apply inject_le; exact L|pose proof (pow10_pos (x - len ds)); lra]. }
    assert (B2 : (inject_Z (number ds) * pow10 (x - len ds) < pow10 x)%Q).
    { replace x with (len ds + (x - len ds)) at 2 by lia. rewrite pow10_plus, (pow10_Z (len ds)) by lia.
      apply Qmult_lt_r; [apply pow10_pos|]. rewrite <- Zlt_Qlt. lia. }
    set (v := (inject_Z (number ds) * pow10 (x - len ds))%Q) in *. clearbody v. split.
    + intros [H|H].
      * left. apply pow10_le in H. lra.
      * right. assert (H' : d <= x - 1) by lia. apply pow10_le in H'. lra.
    + intros [H|H].
      * left. assert (x - 1 < -4) by (apply pow10_lt_inv; lra). lia.
      * right. assert (d < x) by (apply pow10_lt_inv; lra). lia.
  - intros c' I. apply in_app_or in I. destruct I as [I|I].
    + destruct (sign a <? 0); [|destruct I]. destruct I as [<-|[]]. discriminate.
    + unfold assembled in I. apply in_app_or in I. destruct I as [I|I].
      * pose proof (proj1 (Forall_forall _ _) Fi c' I) as D. unfold digit in D. lia.
      * apply in_app_or in I. destruct I as [I|I].
        -- destruct f as [f'|]; [|destruct I]. destruct I as [<-|I]; [discriminate|].
           destruct (Ff f' eq_refl) as [F' _]. pose proof (proj1 (Forall_forall _ _) F' c' I) as D. unfold digit in D. lia.
        -- destruct ex as [x'|]; [|destruct I]. unfold exponent_text in I. destruct I as [<-|[<-|I]]; [discriminate| |].
           ++ destruct (x' <? 0); discriminate.
           ++ destruct (dec0_spec (Z.abs x')) as (_ & _ & D); [lia|].
              pose proof (proj1 (Forall_forall _ _) D c' I) as D'. unfold digit in D'. lia.
Qed.
