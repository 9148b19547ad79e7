(** The names of the results: formatted thresholds and keys. *)
From Coq Require Import Reals QArith Qround Qreals Ascii String DecimalString DecimalN Lqa.
From Verif Require Import Base ResultLib ListLib KpModel KpSpec KpProofs GeomModel PoseModel OksModel CombModel CombSpec.
Open Scope list_scope.

Lemma name_eqb_eq a b : name_eqb a b = true <-> a = b.
Proof. unfold name_eqb. destruct (list_eq_dec ascii_dec a b); split; congruence. Qed.

(** * Rounding *)
Lemma rounded q : let n := round_half_even q in
  (inject_Z n - (1 # 2) <= q <= inject_Z n + (1 # 2))%Q /\ ((q == inject_Z n - (1 # 2) \/ q == inject_Z n + (1 # 2))%Q -> Z.even n = true).
Proof.
  unfold round_half_even. cbv zeta. set (f := Qfloor q).
  pose proof (Qfloor_le q) as L. pose proof (Qlt_floor q) as U. fold f in L, U. rewrite inject_Z_plus in U. change (inject_Z 1) with 1%Q in U.
  destruct (Qcompare_spec (q - inject_Z f) (1 # 2)) as [E|E|E].
  - destruct (Z.even f) eqn:Ev.
    + split; [lra|]. intros _. exact Ev.
    + rewrite inject_Z_plus. change (inject_Z 1) with 1%Q. split; [lra|]. intros _. rewrite Z.even_add, Ev. reflexivity.
  - split; [lra|]. intros [H|H]; lra.
  - rewrite inject_Z_plus. change (inject_Z 1) with 1%Q. split; [lra|]. intros [H|H]; lra.
Qed.
Lemma round_nonneg q : (0 <= q)%Q -> (0 <= round_half_even q)%Z.
Proof.
  intros H. unfold round_half_even. cbv zeta. assert (0 <= Qfloor q)%Z by (change 0%Z with (Qfloor 0); now apply Qfloor_resp_le).
  destruct (_ ?= _)%Q; [destruct (Z.even _)|..]; lia.
Qed.
Lemma inject_le a b : (inject_Z a <= inject_Z b)%Q <-> (a <= b)%Z.
Proof. unfold Qle, inject_Z. cbn [Qnum Qden]. lia. Qed.
Lemma nearest_here q : nearest_hundredths q (Z.of_N (hundredths q)).
Proof.
  unfold hundredths. rewrite Z2N.id; [|apply round_nonneg; pose proof (Qabs.Qabs_nonneg q); lra].
  destruct (rounded (Qabs.Qabs q * 100)) as (H1 & H2). split.
  - lra.
  - intros H. apply H2. destruct H as [H|H]; [left|right]; lra.
Qed.
Lemma nearest_unique q n m : nearest_hundredths q n -> nearest_hundredths q m -> n = m.
Proof.
  assert (forall n m, (n < m)%Z -> nearest_hundredths q n -> nearest_hundredths q m -> False) as W.
  { clear. intros n m L (H1 & H2) (H3 & H4). assert (n + 1 <= m)%Z as L' by lia. apply inject_le in L'. rewrite inject_Z_plus in L'. change (inject_Z 1) with 1%Q in L'.
    assert (inject_Z m == inject_Z n + 1)%Q as E by lra.
    assert (Z.even n = true) as E1 by (apply H2; right; lra). assert (Z.even m = true) as E2 by (apply H4; left; lra).
    assert (m = n + 1)%Z as -> by (unfold Qeq, inject_Z, Qplus in E; cbn in E; lia). rewrite Z.even_add, E1 in E2. discriminate. }
  intros H H'. destruct (Z.lt_trichotomy n m) as [L|[E|L]]; [exfalso; eauto|exact E|exfalso; eauto].
Qed.

(** * Digits *)
Definition numeric (c : ascii) : Prop := (48 <= N_of_ascii c <= 57)%N.
Lemma uint_digits d : Forall numeric (chars (NilEmpty.string_of_uint d)).
Proof. induction d as [|d IH|d IH|d IH|d IH|d IH|d IH|d IH|d IH|d IH|d IH]; cbn; constructor; try exact IH; unfold numeric; vm_compute; split; discriminate. Qed.
Lemma digit_N n : (n < 10)%N -> N_of_ascii (digit n) = (48 + n)%N.
Proof. intros H. unfold digit. apply N_ascii_embedding. lia. Qed.
Lemma digit_numeric n : (n < 10)%N -> numeric (digit n).
Proof. intros H. unfold numeric. rewrite digit_N by exact H. lia. Qed.
Lemma tail_digits h : (h mod 100 / 10 < 10)%N /\ (h mod 10 < 10)%N.
Proof. split; [|apply N.mod_upper_bound; discriminate]. apply N.div_lt_upper_bound; [discriminate|]. pose proof (N.mod_upper_bound h 100 ltac:(discriminate)). lia. Qed.
Lemma chars_inj a b : chars a = chars b -> a = b.
Proof. intros H. rewrite <- (string_of_list_ascii_of_string a), <- (string_of_list_ascii_of_string b). unfold chars in H. now rewrite H. Qed.
Lemma uint_inj n m : chars (NilEmpty.string_of_uint (N.to_uint n)) = chars (NilEmpty.string_of_uint (N.to_uint m)) -> n = m.
Proof.
  intros H. apply chars_inj in H. assert (Some (N.to_uint n) = Some (N.to_uint m)) as E by (rewrite <- !NilEmpty.usu; now rewrite H).
  injection E as E. now apply Unsigned.to_uint_inj.
Qed.
Lemma app_tail3 {A} (a b : list A) x y z x' y' z' : a ++ [x; y; z] = b ++ [x'; y'; z'] -> a = b /\ x = x' /\ y = y' /\ z = z'.
Proof.
  change [x; y; z] with ([x] ++ [y] ++ [z]). change [x'; y'; z'] with ([x'] ++ [y'] ++ [z']). rewrite !app_assoc. intros H.
  apply app_inj_tail in H. destruct H as (H & ->). apply app_inj_tail in H. destruct H as (H & ->). apply app_inj_tail in H. destruct H as (-> & ->). auto.
Qed.
Lemma format_inj h k : format_hundredths h = format_hundredths k -> h = k.
Proof.
  unfold format_hundredths. intros H. apply app_tail3 in H. destruct H as (H1 & _ & H2 & H3). apply uint_inj in H1.
  destruct (tail_digits h) as (A & B), (tail_digits k) as (C & D).
  assert (h mod 100 / 10 = k mod 100 / 10)%N as E2 by (apply (f_equal N_of_ascii) in H2; rewrite !digit_N in H2 by assumption; lia).
  assert (h mod 10 = k mod 10)%N as E3 by (apply (f_equal N_of_ascii) in H3; rewrite !digit_N in H3 by assumption; lia).
  assert (forall x, x mod 100 = 10 * (x mod 100 / 10) + x mod 10)%N as M.
  { intros x. rewrite (N.div_mod (x mod 100) 10) at 1 by discriminate. f_equal. rewrite (N.div_mod x 100) at 2 by discriminate.
    replace (100 * (x / 100) + x mod 100)%N with (x mod 100 + (10 * (x / 100)) * 10)%N by lia. now rewrite N.mod_add by discriminate. }
  rewrite (N.div_mod h 100), (N.div_mod k 100) by discriminate. rewrite (M h), (M k). congruence.
Qed.
Lemma format_head h : exists c l, format_hundredths h = c :: l /\ c <> "-"%char.
Proof.
  unfold format_hundredths. destruct (chars (NilEmpty.string_of_uint (N.to_uint (h / 100)))) as [|c l] eqn:E.
  - eexists _, _. split; [reflexivity|discriminate].
  - exists c. eexists. split; [reflexivity|]. pose proof (uint_digits (N.to_uint (h / 100))) as F. rewrite E in F. inversion F as [|c' l' Hc]. intros ->.
    unfold numeric in Hc. vm_compute in Hc. destruct Hc as (Hc & _). now apply Hc.
Qed.
Theorem written_alike a b : format_2f a = format_2f b <-> ((a < 0)%Q <-> (b < 0)%Q) /\ exists n, nearest_hundredths a n /\ nearest_hundredths b n.
Proof.
  assert ((exists n, nearest_hundredths a n /\ nearest_hundredths b n) <-> hundredths a = hundredths b) as ->.
  { split.
    - intros (n & Ha & Hb). apply N2Z.inj. rewrite (nearest_unique _ _ _ (nearest_here a) Ha), (nearest_unique _ _ _ (nearest_here b) Hb). reflexivity.
    - intros E. exists (Z.of_N (hundredths a)). split; [apply nearest_here|]. rewrite E. apply nearest_here. }
  unfold format_2f. destruct (format_head (hundredths a)) as (ca & la & Ea & Na), (format_head (hundredths b)) as (cb & lb & Eb & Nb).
  destruct (Qlt_le_dec a 0) as [La|La], (Qlt_le_dec b 0) as [Lb|Lb]; cbn [app].
  - split; [intros [= H]; split; [tauto|now apply format_inj]|]. intros (_ & ->). reflexivity.
  - split; [|intros ((H & _) & _); specialize (H La); lra]. rewrite Eb. intros [= H _]. congruence.
  - split; [|intros ((_ & H) & _); specialize (H Lb); lra]. rewrite Ea. intros [= H _]. congruence.
  - split; [intros H; split; [|now apply format_inj]; split; intros; lra|]. intros (_ & ->). reflexivity.
Qed.

(** * Keys *)
Lemma format_no_at q : ~ In "@"%char (format_2f q).
Proof.
  unfold format_2f, format_hundredths. rewrite !in_app_iff. intros [H|[H|H]].
  - destruct (Qlt_le_dec q 0); [destruct H as [H|[]]; discriminate|destruct H].
  - pose proof (uint_digits (N.to_uint (hundredths q / 100))) as F. rewrite Forall_forall in F. specialize (F _ H). unfold numeric in F. vm_compute in F. destruct F as (_ & F). now apply F.
  - destruct (tail_digits (hundredths q)) as (A & B). destruct H as [H|[H|[H|[]]]]; [discriminate| |].
    + apply digit_numeric in A. rewrite H in A. vm_compute in A. destruct A as (_ & A). now apply A.
    + apply digit_numeric in B. rewrite H in B. vm_compute in B. destruct B as (_ & B). now apply B.
Qed.
Lemma format_last q : exists l c, format_2f q = l ++ [c] /\ c <> "P"%char.
Proof.
  unfold format_2f, format_hundredths. set (h := hundredths q).
  exists ((if Qlt_le_dec q 0 then ["-"%char] else []) ++ chars (NilEmpty.string_of_uint (N.to_uint (h / 100))) ++ ["."%char; digit (h mod 100 / 10)]), (digit (h mod 10)).
  split; [rewrite <- !app_assoc; reflexivity|]. intros H. destruct (tail_digits h) as (_ & B). apply digit_numeric in B. rewrite H in B. vm_compute in B. destruct B as (_ & B). now apply B.
Qed.
Lemma split_last {A} (a : A) l m f g : ~ In a f -> ~ In a g -> l ++ a :: f = m ++ a :: g -> l = m /\ f = g.
Proof.
  revert m. induction l as [|x l IH]; intros [|y m] Hf Hg E; cbn [app] in E.
  - injection E as ->. auto.
  - injection E as -> E. exfalso. apply Hf. rewrite E, in_app_iff. right. now left.
  - injection E as -> E. exfalso. apply Hg. rewrite <- E, in_app_iff. right. now left.
  - injection E as -> E. destruct (IH m Hf Hg E) as (-> & ->). auto.
Qed.
Lemma pck_key_inj s t s' t' : pck_key s t = pck_key s' t' -> s = s' /\ format_2f t = format_2f t'.
Proof.
  unfold pck_key. intros H. apply app_inv_head in H. change (text " @ ") with ([" "%char] ++ "@"%char :: [" "%char]) in H. rewrite <- !app_assoc, !(app_assoc _ [" "%char]) in H. cbn [app] in H.
  apply split_last in H; [|intros [Q|Q]; [discriminate|now apply format_no_at in Q]..]. destruct H as (H1 & H2). injection H2 as H2. split; [|exact H2].
  now apply app_inv_tail in H1.
Qed.
Lemma oks_key_inj s t s' t' : oks_key s t = oks_key s' t' -> s = s' /\ format_2f t = format_2f t'.
Proof.
  unfold oks_key. intros H. apply app_inv_head in H. change (text " P @ ") with ([" "; "P"; " "]%char ++ "@"%char :: [" "%char]) in H. rewrite <- !app_assoc, !(app_assoc _ [" "; "P"; " "]%char) in H. cbn [app] in H.
  apply split_last in H; [|intros [Q|Q]; [discriminate|now apply format_no_at in Q]..]. destruct H as (H1 & H2). injection H2 as H2. split; [|exact H2].
  now apply app_inv_tail in H1.
Qed.
Lemma ap_key_inj s s' : ap_key s = ap_key s' -> s = s'.
Proof. unfold ap_key. intros H. apply app_inv_head in H. now apply app_inv_tail in H. Qed.
Lemma mpjpe_key_inj s s' : mpjpe_key s = mpjpe_key s' -> s = s'.
Proof. unfold mpjpe_key. intros H. now apply app_inv_head in H. Qed.
Lemma oks_not_ap s t s' : oks_key s t <> ap_key s'.
Proof.
  unfold oks_key, ap_key. intros H. destruct (format_last t) as (l & c & E & N). rewrite E in H. change (text " AP") with ([" "; "A"]%char ++ ["P"%char]) in H.
  rewrite !app_assoc in H. apply app_inj_tail in H. destruct H as (_ & H). congruence.
Qed.

(** * All of them *)
Lemma nodup_both {A} (l l' : list A) : NoDup l /\ NoDup l' /\ (forall x, In x l -> ~ In x l') -> NoDup (l ++ l').
Proof. intros (H & H' & D). now apply nodup_app. Qed.
Lemma nodup_flat {A B} (f : A -> list B) l : NoDup l -> (forall a, In a l -> NoDup (f a)) ->
  (forall a b x, In a l -> In b l -> In x (f a) -> In x (f b) -> a = b) -> NoDup (flat_map f l).
Proof.
  induction l as [|a l IH]; intros N H D; [constructor|]. apply NoDup_cons_iff in N. destruct N as (Na & N). cbn [flat_map]. apply nodup_both.
  split; [apply H; now left|]. split; [apply IH; [exact N|intros b Hb; apply H; now right|intros b c x Hb Hc; apply D; now right]|].
  intros x Hx Hy. apply in_flat_map in Hy. destruct Hy as (b & Hb & Hxb). assert (a = b) by (apply (D a b x); auto; [now left|now right]). congruence.
Qed.
Lemma nodup_map_on {A B} (f : A -> B) l : NoDup l -> (forall a b, In a l -> In b l -> f a = f b -> a = b) -> NoDup (map f l).
Proof.
  induction l as [|a l IH]; intros N H; [constructor|]. apply NoDup_cons_iff in N. destruct N as (Na & N). cbn [map]. constructor.
  - intros Q. apply in_map_iff in Q. destruct Q as (b & E & Hb). assert (b = a) by (apply H; [now right|now left|exact E]). congruence.
  - apply IH; [exact N|]. intros b c Hb Hc. apply H; now right.
Qed.
Lemma nodup_through {A B C} (f : A -> B) (g : A -> C) l : NoDup (map f l) -> (forall a b, g a = g b -> f a = f b) -> NoDup (map g l).
Proof.
  induction l as [|a l IH]; intros N H; [constructor|]. cbn [map] in *. apply NoDup_cons_iff in N. destruct N as (Na & N). constructor; [|now apply IH].
  intros Q. apply in_map_iff in Q. destruct Q as (b & E & Hb). apply Na. apply in_map_iff. exists b. auto.
Qed.
Definition pck_keys (ts : list Q) (s : name) : list name := map (pck_key s) ts.
Definition oks_keys (ts : list Q) (s : name) : list name := map (oks_key s) ts ++ [ap_key s].
Lemma oks_keys_nodup ts s : told_apart ts -> NoDup (oks_keys ts s).
Proof.
  intros H. apply nodup_both. split; [|split].
  - apply (nodup_through format_2f); [exact H|]. intros a b E. now apply oks_key_inj in E.
  - constructor; [intros []|constructor].
  - intros x Hx [<-|[]]. apply in_map_iff in Hx. destruct Hx as (t & E & _). now apply oks_not_ap in E.
Qed.
Theorem keys_distinct c : mappings c -> told_apart (pck_thresholds c) -> told_apart (oks_thresholds c) -> NoDup (expected_keys c).
Proof.
  intros (N & _) Hp Ho. unfold expected_keys. apply nodup_both. split; [|split].
  - apply nodup_map_on; [exact N|]. intros a b _ _. apply mpjpe_key_inj.
  - apply nodup_both. split; [|split].
    + apply nodup_flat; [exact N| |].
      * intros s _. apply (nodup_through format_2f); [exact Hp|]. intros a b E. now apply pck_key_inj in E.
      * intros a b x _ _ Ha Hb. apply in_map_iff in Ha, Hb. destruct Ha as (t & <- & _), Hb as (t' & E & _). apply pck_key_inj in E. now destruct E.
    + apply nodup_flat; [exact N| |].
      * intros s _. now apply oks_keys_nodup.
      * intros a b x _ _ Ha Hb. rewrite in_app_iff in Ha, Hb. destruct Ha as [Ha|[<-|[]]], Hb as [Hb|[Hb|[]]].
        -- apply in_map_iff in Ha, Hb. destruct Ha as (t & <- & _), Hb as (t' & E & _). apply oks_key_inj in E. now destruct E.
        -- subst x. apply in_map_iff in Ha. destruct Ha as (t & E & _). now apply oks_not_ap in E.
        -- apply in_map_iff in Hb. destruct Hb as (t & E & _). now apply oks_not_ap in E.
        -- symmetry. now apply ap_key_inj.
    + intros x Hx Hy. apply in_flat_map in Hx, Hy. destruct Hx as (s & _ & Hx), Hy as (s' & _ & Hy). apply in_map_iff in Hx. destruct Hx as (t & <- & _).
      apply in_app_iff in Hy. destruct Hy as [Hy|[Hy|[]]]; [apply in_map_iff in Hy; destruct Hy as (t' & Hy & _)|]; discriminate.
  - intros x Hx Hy. apply in_map_iff in Hx. destruct Hx as (s & <- & _). apply in_app_iff in Hy. destruct Hy as [Hy|Hy]; apply in_flat_map in Hy; destruct Hy as (s' & _ & Hy).
    + apply in_map_iff in Hy. destruct Hy as (t & Hy & _). discriminate.
    + apply in_app_iff in Hy. destruct Hy as [Hy|[Hy|[]]]; [apply in_map_iff in Hy; destruct Hy as (t & Hy & _)|]; discriminate.
Qed.
