(** Proofs about tensors of keypoints and boxes and the metrics of visibility. *)
From Coq Require Import QArith List Arith Lia Bool Permutation Lqa.
From Verif Require Import Base ResultLib StkModel StkSpec.
Import ListNotations.

Lemma shape_eqb_iff a b : shape_eqb a b = true <-> a = b.
Proof. unfold shape_eqb. destruct (list_eq_dec _ a b); split; intro; congruence. Qed.
Notation prod := (fold_right Nat.mul 1%nat).
Lemma offset_lt sh idx : valid sh idx -> (offset sh idx < prod sh)%nat.
Proof.
  unfold valid. intro H. induction H as [|i s idx sh L H IH]; cbn [offset fold_right]; [lia|]. nia.
Qed.
Lemma concat_nth {A} (ls : list (list A)) n : (forall l, In l ls -> length l = n) -> forall i l k, nth_error ls i = Some l -> (k < n)%nat ->
  nth_error (concat ls) (i * n + k) = nth_error l k.
Proof.
  induction ls as [|x ls IH]; intros H i l k E K; [destruct i; discriminate E|]. cbn [concat].
  pose proof (H x (or_introl eq_refl)) as Lx. destruct i as [|i].
  - injection E as <-. cbn. apply nth_error_app1. lia.
  - cbn [nth_error] in E. rewrite nth_error_app2 by (rewrite Lx; lia). rewrite Lx. replace (S i * n + k - n)%nat with (i * n + k)%nat by lia.
    apply IH; auto. intros m M. apply H. now right.
Qed.
Lemma concat_len {A} (ls : list (list A)) n : (forall l, In l ls -> length l = n) -> length (concat ls) = (length ls * n)%nat.
Proof.
  induction ls as [|x ls IH]; intro H; [reflexivity|]. cbn [concat length]. rewrite app_length, (H x (or_introl eq_refl)), IH; [lia|].
  intros l L. apply H. now right.
Qed.
Theorem stack_outcome {A} (ts : list (tensor A)) :
  (ts = [] -> stack ts = Ok {| shape := [0%nat]; values := [] |}) /\
  (ts <> [] -> (forall sh, exists u, In u ts /\ shape u <> sh) -> stack ts = Err ValueError) /\
  (forall sh, ts <> [] -> (forall u, In u ts -> shape u = sh /\ full u) -> exists t, stack ts = Ok t /\ shape t = length ts :: sh /\ full t /\
     forall i u idx, nth_error ts i = Some u -> valid sh idx -> entry t (i :: idx) = entry u idx).
Proof.
  split; [intros ->; reflexivity|]. split.
  - intros N H. destruct ts as [|t ts]; [contradiction|]. unfold stack. destruct (forallb _ (t :: ts)) eqn:E; [|reflexivity]. exfalso.
    destruct (H (shape t)) as (u & U & D). rewrite forallb_forall in E. apply D. apply shape_eqb_iff. now apply E.
  - intros sh N H. destruct ts as [|t ts]; [contradiction|]. unfold stack.
    assert (E : forallb (fun u => shape_eqb (shape u) (shape t)) (t :: ts) = true).
    { apply forallb_forall. intros u U. apply shape_eqb_iff. rewrite (proj1 (H u U)). symmetry. apply H. now left. }
    rewrite E. eexists. split; [reflexivity|]. destruct (H t (or_introl eq_refl)) as (St & _). rewrite St.
    assert (W : forall l, In l (map values (t :: ts)) -> length l = prod sh).
    { intros l L. apply in_map_iff in L. destruct L as (u & <- & U). destruct (H u U) as (Su & Fu). unfold full in Fu. now rewrite Su in Fu. }
    split; [reflexivity|]. split; [unfold full; cbn [shape values fold_right]; rewrite (concat_len _ _ W), map_length; reflexivity|].
    intros i u idx Hi V. unfold entry. cbn [shape values offset]. rewrite (concat_nth _ (prod sh) W i (values u)).
    + destruct (H u (nth_error_In _ _ Hi)) as (-> & _). reflexivity.
    + now apply map_nth_error.
    + now apply offset_lt.
Qed.

(** Keypoints. *)
Lemma two_three n : two_or_three n = true <-> n = 2%nat \/ n = 3%nat.
Proof. unfold two_or_three. rewrite orb_true_iff, !Nat.eqb_eq. reflexivity. Qed.
Lemma make_ok l v h k : make_keypoints l v h = Ok k <->
  (rank l = 2%nat \/ rank l = 3%nat) /\ shape v = removelast (shape l) /\ (last (shape l) 0 = 2 \/ last (shape l) 0 = 3)%nat /\
  k = {| location := l; visibility := v; has_visible := match h with Some h => h | None => reduce_any (is_fully_visible v) end |}.
Proof.
  unfold make_keypoints. rewrite <- (two_three (last (shape l) 0%nat)).
  assert (R : (Nat.eqb (rank l) 2 || Nat.eqb (rank l) 3 = true) <-> (rank l = 2%nat \/ rank l = 3%nat)) by (rewrite orb_true_iff, !Nat.eqb_eq; reflexivity).
  rewrite <- R, <- shape_eqb_iff. destruct (_ || _); cbn [negb]; [|split; [discriminate|intros (H & _); discriminate H]].
  destruct (shape_eqb _ _); cbn [negb]; [|split; [discriminate|intros (_ & H & _); discriminate H]].
  destruct (two_or_three _); cbn [negb]; [|split; [discriminate|intros (_ & _ & H & _); discriminate H]].
  split; [intro H; injection H as <-; auto|intros (_ & _ & _ & ->); reflexivity].
Qed.
Lemma make_err l v h e : make_keypoints l v h = Err e -> e = ValueError.
Proof.
  unfold make_keypoints. destruct (negb _); [intro H; injection H as <-; reflexivity|].
  destruct (negb _); [intro H; injection H as <-; reflexivity|]. destruct (negb _); [intro H; injection H as <-; reflexivity|discriminate].
Qed.
Lemma stack_err {A} (ts : list (tensor A)) e : stack ts = Err e -> e = ValueError.
Proof. unfold stack. destruct ts; [discriminate|]. destruct (forallb _ _); [discriminate|]. intro H. now injection H as <-. Qed.
Lemma stack_ok {A} (ts : list (tensor A)) t : stack ts = Ok t -> ts <> [] -> exists sh, (forall u, In u ts -> shape u = sh) /\ shape t = length ts :: sh.
Proof.
  unfold stack. destruct ts as [|a ts]; [contradiction|]. intros H _. destruct (forallb _ _) eqn:E; [|discriminate H]. injection H as <-.
  exists (shape a). split; [|reflexivity]. rewrite forallb_forall in E. intros u U. apply shape_eqb_iff. now apply E.
Qed.
Lemma skipn_twice {A} a : forall (l : list A) b, skipn b (skipn a l) = skipn (a + b) l.
Proof.
  induction a as [|a IH]; intros l b; [reflexivity|]. destruct l as [|x l]; [now rewrite !skipn_nil|]. cbn [skipn Nat.add]. apply IH.
Qed.
Lemma rows_nth {A} w : forall c (l : list A) i, (i < c)%nat -> nth_error (rows c w l) i = Some (firstn w (skipn (i * w) l)).
Proof.
  induction c as [|c IH]; intros l i I; [lia|]. cbn [rows]. destruct i as [|i]; [reflexivity|]. cbn [nth_error]. rewrite IH by lia.
  do 2 f_equal. cbn [Nat.mul]. apply skipn_twice.
Qed.
Lemma firstn_nth {A} n : forall (l : list A) k, (k < n)%nat -> nth_error (firstn n l) k = nth_error l k.
Proof. induction n as [|n IH]; intros l k K; [lia|]. destruct l; [now destruct k|]. destruct k; [reflexivity|]. cbn. apply IH. lia. Qed.
Lemma skipn_nth {A} n : forall (l : list A) k, nth_error (skipn n l) k = nth_error l (n + k).
Proof. induction n as [|n IH]; intros l k; [reflexivity|]. destruct l; [now destruct k|]. cbn. apply IH. Qed.

Theorem keypoints_outcome vs : (forall v, In v vs -> made_keypoints v) ->
  ((exists k, stack_keypoints vs = Ok k) <-> vs <> [] /\ exists n d, forall v, In v vs -> shape (location v) = [n; d]) /\
  (forall e, stack_keypoints vs = Err e -> e = ValueError).
Proof.
  intro M. unfold stack_keypoints. split.
  - split.
    + intros (k & H). destruct (stack (map location vs)) as [l|] eqn:L; [|discriminate H]. cbn [bind] in H.
      destruct (stack (map visibility vs)) as [v|] eqn:V; [|discriminate H]. cbn [bind] in H. apply make_ok in H. destruct H as (Rk & Sv & D & _).
      destruct vs as [|a vs]; [cbn in L; injection L as <-; cbn in Rk; destruct Rk; discriminate|]. split; [discriminate|].
      destruct (stack_ok _ _ L ltac:(discriminate)) as (sh & S1 & S2).
      assert (Sa : forall v, In v (a :: vs) -> shape (location v) = sh) by (intros u U; apply S1; now apply in_map).
      destruct (M a (or_introl eq_refl)) as (h & Ma). apply make_ok in Ma. destruct Ma as (Ra & _). unfold rank in *. rewrite S2 in Rk. cbn [length] in Rk.
      rewrite (Sa a (or_introl eq_refl)) in Ra. destruct sh as [|n [|d [|x sh]]]; cbn [length] in *; try lia. now exists n, d.
    + intros (N & n & d & S). destruct vs as [|a vs]; [contradiction|].
      assert (Sv : forall v, In v (a :: vs) -> shape (visibility v) = [n]).
      { intros v I. destruct (M v I) as (h & Mv). apply make_ok in Mv. destruct Mv as (_ & E & _). rewrite E, (S v I). reflexivity. }
      unfold stack. cbn [map]. change (location a :: map location vs) with (map location (a :: vs)). change (visibility a :: map visibility vs) with (map visibility (a :: vs)).
      assert (El : forallb (fun u => shape_eqb (shape u) (shape (location a))) (map location (a :: vs)) = true).
      { apply forallb_forall. intros u U. apply in_map_iff in U. destruct U as (v & <- & V). apply shape_eqb_iff. rewrite (S v V), (S a (or_introl eq_refl)). reflexivity. }
      assert (Ev : forallb (fun u => shape_eqb (shape u) (shape (visibility a))) (map visibility (a :: vs)) = true).
      { apply forallb_forall. intros u U. apply in_map_iff in U. destruct U as (v & <- & V). apply shape_eqb_iff. rewrite (Sv v V), (Sv a (or_introl eq_refl)). reflexivity. }
      rewrite El. cbn [bind]. rewrite Ev. cbn [bind]. eexists. apply make_ok. unfold rank. cbn [shape]. rewrite (S a (or_introl eq_refl)), (Sv a (or_introl eq_refl)).
      split; [now right|]. split; [rewrite !map_length; reflexivity|]. split; [|reflexivity].
      destruct (M a (or_introl eq_refl)) as (h & Ma). apply make_ok in Ma. destruct Ma as (_ & _ & D & _). rewrite (S a (or_introl eq_refl)) in D. exact D.
  - intros e H. destruct (stack (map location vs)) as [l|] eqn:L; cbn [bind] in H; [|injection H as <-; exact (stack_err _ _ L)].
    destruct (stack (map visibility vs)) as [v|] eqn:V; cbn [bind] in H; [exact (make_err _ _ _ _ H)|injection H as <-; exact (stack_err _ _ V)].
Qed.
Theorem keypoints_stacked vs n d k : (forall v, In v vs -> made_keypoints v /\ shape (location v) = [n; d] /\ full (location v) /\ full (visibility v)) ->
  stack_keypoints vs = Ok k ->
  shape (location k) = [length vs; n; d] /\ shape (visibility k) = [length vs; n] /\ shape (has_visible k) = [length vs] /\
  forall i v, nth_error vs i = Some v ->
    (forall a b, (a < n)%nat -> (b < d)%nat -> entry (location k) [i; a; b] = entry (location v) [a; b]) /\
    (forall a, (a < n)%nat -> entry (visibility k) [i; a] = entry (visibility v) [a]) /\
    exists s, entry (has_visible k) [i] = Some s /\ (s = true <-> exists a z, (a < n)%nat /\ entry (visibility v) [a] = Some z /\ (1 < z)%Z).
Proof.
  intros M H. assert (N : vs <> []) by (apply (proj1 (keypoints_outcome vs (fun v I => proj1 (M v I)))); now exists k).
  assert (Sv : forall v, In v vs -> shape (visibility v) = [n]).
  { intros v I. destruct (M v I) as ((h & Mv) & E & _). apply make_ok in Mv. destruct Mv as (_ & E' & _). rewrite E', E. reflexivity. }
  destruct (proj2 (proj2 (stack_outcome (map location vs))) [n; d]) as (l & L & Sl & Fl & El).
  { intro Z. now apply map_eq_nil in Z. } { intros u U. apply in_map_iff in U. destruct U as (v & <- & V). split; apply (M v V). }
  destruct (proj2 (proj2 (stack_outcome (map visibility vs))) [n]) as (w & W & Sw & Fw & Ew).
  { intro Z. now apply map_eq_nil in Z. } { intros u U. apply in_map_iff in U. destruct U as (v & <- & V). split; [now apply Sv|apply (M v V)]. }
  rewrite map_length in Sl, Sw. unfold stack_keypoints in H. rewrite L, W in H. cbn [bind] in H. apply make_ok in H. destruct H as (_ & _ & _ & ->).
  cbn [location visibility has_visible]. split; [exact Sl|]. split; [exact Sw|]. split; [unfold reduce_any, is_fully_visible; cbn [shape]; rewrite Sw; reflexivity|].
  intros i v I. split; [|split].
  - intros a b A B. apply El; [now apply map_nth_error|]. repeat constructor; assumption.
  - intros a A. apply Ew; [now apply map_nth_error|]. repeat constructor; assumption.
  - assert (Li : (i < length vs)%nat) by (apply nth_error_Some; congruence).
    unfold entry at 1. unfold reduce_any, is_fully_visible. cbn [shape values]. rewrite Sw. cbn [removelast last fold_right offset].
    rewrite Nat.mul_1_r. replace (i * 1 + 0)%nat with i by lia. rewrite (map_nth_error _ _ _ (rows_nth n (length vs) _ i Li)).
    eexists. split; [reflexivity|]. rewrite existsb_exists. split.
    + intros (x & X & ->). apply In_nth_error in X. destruct X as (a & X).
      assert (A : (a < n)%nat). { assert (a < length (firstn n (skipn (i * n) (map (fun v0 => (1 <? v0)%Z) (values w)))))%nat by (apply nth_error_Some; congruence). rewrite firstn_length in *. lia. }
      rewrite firstn_nth, skipn_nth, nth_error_map in X by exact A.
      specialize (Ew i (visibility v) [a] (map_nth_error _ _ _ I) ltac:(repeat constructor; exact A)). unfold entry in Ew at 1. rewrite Sw in Ew. cbn [offset fold_right] in Ew.
      rewrite Nat.mul_1_r in Ew. replace (i * n + (a * 1 + 0))%nat with (i * n + a)%nat in Ew by lia. rewrite Ew in X.
      destruct (entry (visibility v) [a]) as [z|] eqn:Z; [|discriminate X]. cbn in X. injection X as X. exists a, z. split; [exact A|]. split; [exact Z|]. now apply Z.ltb_lt.
    + intros (a & z & A & Z & P). exists true. split; [|reflexivity]. apply (nth_error_In _ a). rewrite firstn_nth, skipn_nth, nth_error_map by exact A.
      specialize (Ew i (visibility v) [a] (map_nth_error _ _ _ I) ltac:(repeat constructor; exact A)). unfold entry in Ew at 1. rewrite Sw in Ew. cbn [offset fold_right] in Ew.
      rewrite Nat.mul_1_r in Ew. replace (i * n + (a * 1 + 0))%nat with (i * n + a)%nat in Ew by lia. rewrite Ew, Z. cbn. f_equal. now apply Z.ltb_lt.
Qed.

(** Boxes. *)
Lemma made_box_iff b : made_box b <-> (rank (center b) = 1%nat \/ rank (center b) = 2%nat) /\ (last (shape (center b)) 0 = 2 \/ last (shape (center b)) 0 = 3)%nat /\ shape (center b) = shape (size b).
Proof.
  unfold made_box, make_box. rewrite <- (two_three (last (shape (center b)) 0%nat)), <- (shape_eqb_iff (shape (center b)) (shape (size b))).
  assert (R : (Nat.eqb (rank (center b)) 1 || Nat.eqb (rank (center b)) 2 = true) <-> (rank (center b) = 1%nat \/ rank (center b) = 2%nat)) by (rewrite orb_true_iff, !Nat.eqb_eq; reflexivity).
  rewrite <- R. destruct (_ || _); cbn [negb]; [|split; [discriminate|intros (H & _); discriminate H]].
  destruct (two_or_three _); cbn [negb]; [|split; [discriminate|intros (_ & H & _); discriminate H]].
  destruct (shape_eqb _ _); cbn [negb]; [|split; [discriminate|intros (_ & _ & H); discriminate H]]. split; [auto|]. intros _. destruct b; reflexivity.
Qed.
Lemma stack_same {A} (ts : list (tensor A)) sh : ts <> [] -> (forall u, In u ts -> shape u = sh) -> stack ts = Ok {| shape := length ts :: sh; values := concat (map values ts) |}.
Proof.
  intros N H. destruct ts as [|t ts]; [contradiction|]. unfold stack.
  assert (E : forallb (fun u => shape_eqb (shape u) (shape t)) (t :: ts) = true).
  { apply forallb_forall. intros u U. apply shape_eqb_iff. rewrite (H u U). symmetry. apply H. now left. }
  rewrite E, (H t (or_introl eq_refl)). reflexivity.
Qed.
Lemma filter_none vs : (forall b, In b vs -> heading b = None) -> filter has_heading vs = [].
Proof.
  induction vs as [|b vs IH]; intro H; [reflexivity|]. cbn [filter]. unfold has_heading at 1. rewrite (H b (or_introl eq_refl)). apply IH. intros x X. apply H. now right.
Qed.
Lemma filter_every vs : (forall b, In b vs -> heading b <> None) -> filter has_heading vs = vs.
Proof.
  induction vs as [|b vs IH]; intro H; [reflexivity|]. cbn [filter]. unfold has_heading at 1. pose proof (H b (or_introl eq_refl)). destruct (heading b); [|congruence].
  f_equal. apply IH. intros x X. apply H. now right.
Qed.
Lemma filter_len {A} (f : A -> bool) l : (length (filter f l) <= length l)%nat.
Proof. induction l as [|a l IH]; [apply le_n|]. cbn. destruct (f a); cbn; lia. Qed.
Lemma filter_mixed vs : mixed vs -> (0 < length (filter has_heading vs) < length vs)%nat.
Proof.
  intros ((b & B & Nb) & (c & C & Nc)). split.
  - assert (I : In c (filter has_heading vs)) by (apply filter_In; split; [exact C|unfold has_heading; destruct (heading c); congruence]).
    destruct (filter has_heading vs); [destruct I|cbn; lia].
  - clear - B Nb. induction vs as [|x vs IH]; [destruct B|]. cbn [filter length]. destruct B as [->|B].
    + unfold has_heading at 1. rewrite Nb. pose proof (filter_len has_heading vs). lia.
    + specialize (IH B). destruct (has_heading x); cbn [length]; lia.
Qed.
Lemma headings_nth vs : (forall b, In b vs -> heading b <> None) -> forall i b h, nth_error vs i = Some b -> heading b = Some h -> nth_error (headings vs) i = Some h.
Proof.
  induction vs as [|x vs IH]; intros H i b h I E; [destruct i; discriminate I|]. unfold headings. cbn [flat_map]. destruct i as [|i].
  - injection I as ->. rewrite E. reflexivity.
  - pose proof (H x (or_introl eq_refl)). destruct (heading x); [|congruence]. cbn. apply (IH (fun y Y => H y (or_intror Y)) i b h); assumption.
Qed.
Lemma headings_len vs : (forall b, In b vs -> heading b <> None) -> length (headings vs) = length vs.
Proof.
  induction vs as [|x vs IH]; intro H; [reflexivity|]. unfold headings. cbn [flat_map]. pose proof (H x (or_introl eq_refl)). destruct (heading x); [|congruence].
  cbn. f_equal. apply IH. intros y Y. apply H. now right.
Qed.
Lemma headings_in vs h : In h (headings vs) -> exists b, In b vs /\ heading b = Some h.
Proof.
  unfold headings. rewrite in_flat_map. intros (b & B & H). exists b. split; [exact B|]. destruct (heading b); [|destruct H]. destruct H as [->|[]]. reflexivity.
Qed.
Theorem boxes_refused vs : (forall b, In b vs -> made_box b) ->
  (vs = [] -> stack_boxes vs = Err ValueError) /\
  (vs <> [] -> (forall sh, exists b, In b vs /\ shape (center b) <> sh) -> stack_boxes vs = Err ValueError) /\
  (forall sh, (forall b, In b vs -> shape (center b) = sh) -> mixed vs -> stack_boxes vs = Err AssertionError) /\
  (forall n d, vs <> [] -> (forall b, In b vs -> shape (center b) = [n; d]) -> ~ mixed vs -> (forall b, In b vs -> heading b = None) -> stack_boxes vs = Err ValueError).
Proof.
  intro M. unfold stack_boxes. split; [intros ->; reflexivity|]. split; [|split].
  - intros N H. rewrite (proj1 (proj2 (stack_outcome (map center vs)))); [reflexivity| |].
    + intro Z. now apply map_eq_nil in Z.
    + intro sh. destruct (H sh) as (b & B & D). exists (center b). split; [now apply in_map|exact D].
  - intros sh S X. pose proof (filter_mixed vs X) as (F1 & F2). assert (N : vs <> []) by (destruct X as ((b & B & _) & _); intros ->; destruct B).
    rewrite (stack_same (map center vs) sh).
    + cbn [bind]. rewrite (stack_same (map size vs) sh).
      * cbn [bind]. unfold stack_optional_headings. destruct (Nat.eqb_spec (length (filter has_heading vs)) 0); [lia|].
        destruct (Nat.eqb_spec (length (filter has_heading vs)) (length vs)); [lia|]. reflexivity.
      * intro Z. now apply map_eq_nil in Z.
      * intros u U. apply in_map_iff in U. destruct U as (b & <- & B). destruct (proj1 (made_box_iff b) (M b B)) as (_ & _ & E). now rewrite <- E, S.
    + intro Z. now apply map_eq_nil in Z.
    + intros u U. apply in_map_iff in U. destruct U as (b & <- & B). now apply S.
  - intros n d N S _ Hn. rewrite (stack_same (map center vs) [n; d]).
    + cbn [bind]. rewrite (stack_same (map size vs) [n; d]).
      * cbn [bind]. unfold stack_optional_headings. rewrite (filter_none vs Hn). reflexivity.
      * intro Z. now apply map_eq_nil in Z.
      * intros u U. apply in_map_iff in U. destruct U as (b & <- & B). destruct (proj1 (made_box_iff b) (M b B)) as (_ & _ & E). now rewrite <- E, S.
    + intro Z. now apply map_eq_nil in Z.
    + intros u U. apply in_map_iff in U. destruct U as (b & <- & B). now apply S.
Qed.
Theorem boxes_stacked vs d : vs <> [] ->
  (forall b, In b vs -> made_box b /\ shape (center b) = [d] /\ full (center b) /\ full (size b) /\ forall h, heading b = Some h -> shape h = [] /\ full h) ->
  ~ mixed vs -> exists k, stack_boxes vs = Ok k /\ shape (center k) = [length vs; d] /\ shape (size k) = [length vs; d] /\
    (heading k = None <-> forall b, In b vs -> heading b = None) /\
    forall i b, nth_error vs i = Some b ->
      (forall a, (a < d)%nat -> entry (center k) [i; a] = entry (center b) [a] /\ entry (size k) [i; a] = entry (size b) [a]) /\
      (forall h, heading b = Some h -> exists hs, heading k = Some hs /\ entry hs [i] = entry h []).
Proof.
  intros N M X.
  destruct (proj2 (proj2 (stack_outcome (map center vs))) [d]) as (c & C & Sc & Fc & Ec).
  { intro Z. now apply map_eq_nil in Z. } { intros u U. apply in_map_iff in U. destruct U as (b & <- & B). destruct (M b B) as (_ & S1 & F1 & _); now split. }
  destruct (proj2 (proj2 (stack_outcome (map size vs))) [d]) as (s & S & Ss & Fs & Es).
  { intro Z. now apply map_eq_nil in Z. }
  { intros u U. apply in_map_iff in U. destruct U as (b & <- & B). destruct (M b B) as (Mb & Sb & _ & F & _). split; [|exact F]. destruct (proj1 (made_box_iff b) Mb) as (_ & _ & E). now rewrite <- E. }
  rewrite map_length in Sc, Ss. unfold stack_boxes. rewrite C, S. cbn [bind].
  assert (D : d = 2%nat \/ d = 3%nat).
  { destruct vs as [|b vs]; [contradiction|]. destruct (M b (or_introl eq_refl)) as (Mb & Sb & _). destruct (proj1 (made_box_iff b) Mb) as (_ & D & _). now rewrite Sb in D. }
  assert (Mk : forall h, make_box c s h = Ok {| center := c; size := s; heading := h |}).
  { intro h. apply (made_box_iff {| center := c; size := s; heading := h |}). unfold rank. cbn [center size]. rewrite Sc, Ss. split; [now right|]. split; [exact D|reflexivity]. }
  assert (Hc : forall i b, nth_error vs i = Some b -> forall a, (a < d)%nat -> entry c [i; a] = entry (center b) [a] /\ entry s [i; a] = entry (size b) [a]).
  { intros i b I a A. split; [apply Ec|apply Es]; try (now apply map_nth_error); repeat constructor; exact A. }
  assert (Cases : (forall b, In b vs -> heading b = None) \/ (forall b, In b vs -> heading b <> None)).
  { destruct (filter has_heading vs) as [|x l] eqn:F.
    - left. intros b B. destruct (heading b) eqn:E; [|reflexivity]. assert (I : In b (filter has_heading vs)) by (apply filter_In; split; [exact B|unfold has_heading; now rewrite E]). rewrite F in I. destruct I.
    - right. intros b B E. apply X. split; [now exists b|]. assert (I : In x (filter has_heading vs)) by (rewrite F; now left). apply filter_In in I. destruct I as (I & Hx).
      exists x. split; [exact I|]. unfold has_heading in Hx. destruct (heading x); [discriminate|discriminate Hx]. }
  destruct Cases as [Hn|Hs].
  - exists {| center := c; size := s; heading := None |}. unfold stack_optional_headings. rewrite (filter_none vs Hn). cbn [length Nat.eqb bind].
    split; [apply Mk|]. split; [exact Sc|]. split; [exact Ss|]. split; [split; auto|]. intros i b I. split; [now apply Hc|]. intros h E. rewrite (Hn b (nth_error_In _ _ I)) in E. discriminate E.
  - assert (Nh : headings vs <> []). { intro Z. pose proof (headings_len vs Hs) as L. rewrite Z in L. destruct vs; [contradiction|discriminate L]. }
    destruct (proj2 (proj2 (stack_outcome (headings vs))) [] Nh) as (h & H & Sh & Fh & Eh).
    { intros u U. destruct (headings_in _ _ U) as (b & B & E). exact (proj2 (proj2 (proj2 (proj2 (M b B)))) u E). }
    exists {| center := c; size := s; heading := Some h |}. unfold stack_optional_headings. rewrite (filter_every vs Hs).
    destruct (Nat.eqb_spec (length vs) 0) as [Z|Z]; [destruct vs; [contradiction|discriminate Z]|]. rewrite Nat.eqb_refl, H. cbn [bind].
    split; [apply Mk|]. split; [exact Sc|]. split; [exact Ss|]. split.
    + split; [discriminate|]. intro Q. exfalso. destruct vs as [|b vs]; [contradiction|]. apply (Hs b (or_introl eq_refl)), Q. now left.
    + intros i b I. split; [now apply Hc|]. intros g G. exists h. split; [reflexivity|]. apply (Eh i g []); [|constructor]. exact (headings_nth vs Hs i b g I G).
Qed.
Lemma zip_nth {A B C} (f : A -> B -> C) : forall a b i, length a = length b ->
  nth_error (zip_with f a b) i = match nth_error a i, nth_error b i with Some x, Some y => Some (f x y) | _, _ => None end.
Proof.
  unfold zip_with. induction a as [|x a IH]; intros [|y b] i L; try discriminate L; [now destruct i|]. destruct i as [|i]; [reflexivity|]. cbn. apply IH. now injection L.
Qed.
Lemma valid_some {A} (t : tensor A) idx : full t -> valid (shape t) idx -> exists x, entry t idx = Some x.
Proof.
  intros F V. unfold entry. destruct (nth_error _ _) eqn:E; [eauto|]. apply nth_error_None in E. apply offset_lt in V. unfold full in F. lia.
Qed.
Theorem corners b idx : made_box b -> full (center b) -> full (size b) -> valid (shape (center b)) idx ->
  exists c s lo hi, entry (center b) idx = Some c /\ entry (size b) idx = Some s /\ entry (min_corner b) idx = Some lo /\ entry (max_corner b) idx = Some hi /\
    (lo + hi == c + c /\ hi - lo == s)%Q.
Proof.
  intros M Fc Fs V. apply made_box_iff in M. destruct M as (_ & _ & E). destruct (valid_some _ _ Fc V) as (c & C).
  assert (V' : valid (shape (size b)) idx) by now rewrite <- E. destruct (valid_some _ _ Fs V') as (s & S).
  assert (L : length (values (center b)) = length (values (size b))) by (unfold full in *; rewrite Fc, Fs, E; reflexivity).
  exists c, s, (c - s / 2)%Q, (c + s / 2)%Q. split; [exact C|]. split; [exact S|]. unfold entry in *. cbn [min_corner max_corner shape values].
  rewrite !zip_nth, C by exact L. rewrite <- E in S. rewrite S. split; [reflexivity|]. split; [reflexivity|]. split; field.
Qed.

(** Precision and recall. *)
Lemma weight_total f o : (weight_of f o == total (fun x => f (labelled x) (predicted x)) o)%Q.
Proof.
  induction o as [|x o IH]; [reflexivity|]. unfold weight_of, qsum, total in *. cbn [map fold_right]. rewrite IH. unfold labelled, predicted.
  destruct (f _ _); [reflexivity|]. apply Qplus_0_l.
Qed.
Lemma total_app f a b : (total f (a ++ b) == total f a + total f b)%Q.
Proof.
  induction a as [|x a IH]; cbn [app total fold_right]; [now rewrite Qplus_0_l|]. unfold total in IH. destruct (f x); rewrite IH; [|reflexivity]. fold (total f a). fold (total f b). ring.
Qed.
Lemma total_split f g l : (total (fun x => f x && g x) l + total (fun x => negb (f x) && g x) l == total g l)%Q.
Proof.
  induction l as [|x l IH]; cbn [total fold_right]; [reflexivity|]. unfold total in IH. destruct (f x), (g x); cbn [andb negb]; fold (total g l) in *; rewrite <- IH; ring.
Qed.
Lemma total_ext f g l : (forall x, f x = g x) -> total f l = total g l.
Proof. intro H. induction l as [|x l IH]; [reflexivity|]. cbn [total fold_right]. rewrite H. unfold total in IH. now rewrite IH. Qed.
Lemma fold_precision cs : forall os s, mapM observe cs = Ok os -> exists s', foldM update_precision cs s = Ok s' /\
  (true_positives s' == true_positives s + total (fun o => labelled o && predicted o) (concat os))%Q /\
  (false_ones s' == false_ones s + total (fun o => negb (labelled o) && predicted o) (concat os))%Q.
Proof.
  induction cs as [|c cs IH]; intros os s H; cbn [mapM] in H.
  - injection H as <-. exists s. cbn. split; [reflexivity|]. split; ring.
  - destruct (observe c) as [o|] eqn:E; [|discriminate H]. cbn [bind] in H. destruct (mapM observe cs) as [os'|] eqn:F; [|discriminate H]. injection H as <-.
    cbn [foldM]. unfold update_precision at 1. rewrite E. cbn [bind].
    destruct (IH os' {| true_positives := true_positives s + weight_of (fun g p => g && p) o; false_ones := false_ones s + weight_of (fun g p => negb g && p) o |} eq_refl) as (s' & G & A & B).
    exists s'. split; [exact G|]. cbn [true_positives false_ones concat] in *. rewrite !total_app, A, B, !weight_total. split; ring.
Qed.
Lemma fold_recall cs : forall os s, mapM observe cs = Ok os -> exists s', foldM update_recall cs s = Ok s' /\
  (true_positives s' == true_positives s + total (fun o => labelled o && predicted o) (concat os))%Q /\
  (false_ones s' == false_ones s + total (fun o => labelled o && negb (predicted o)) (concat os))%Q.
Proof.
  induction cs as [|c cs IH]; intros os s H; cbn [mapM] in H.
  - injection H as <-. exists s. cbn. split; [reflexivity|]. split; ring.
  - destruct (observe c) as [o|] eqn:E; [|discriminate H]. cbn [bind] in H. destruct (mapM observe cs) as [os'|] eqn:F; [|discriminate H]. injection H as <-.
    cbn [foldM]. unfold update_recall at 1. rewrite E. cbn [bind].
    destruct (IH os' {| true_positives := true_positives s + weight_of (fun g p => g && p) o; false_ones := false_ones s + weight_of (fun g p => g && negb p) o |} eq_refl) as (s' & G & A & B).
    exists s'. split; [exact G|]. cbn [true_positives false_ones concat] in *. rewrite !total_app, A, B, !weight_total. split; ring.
Qed.
Lemma result_share s part whole l : (true_positives s == total part l)%Q -> (true_positives s + false_ones s == total whole l)%Q -> share part whole l (result_of s).
Proof.
  intros A B. unfold result_of, divide_no_nan, share. destruct (Qeq_bool _ 0) eqn:E.
  - apply Qeq_bool_iff in E. left. rewrite <- B. split; [exact E|reflexivity].
  - apply Qeq_bool_neq in E. right. rewrite <- B, <- A. split; [exact E|]. field. exact E.
Qed.
Theorem precision_share cs os : mapM observe cs = Ok os -> exists q, precision cs = Ok q /\ share (fun o => labelled o && predicted o) predicted (concat os) q.
Proof.
  intro H. destruct (fold_precision cs os no_sums H) as (s & E & A & B). unfold precision. rewrite E. cbn [bind]. eexists. split; [reflexivity|].
  cbn [no_sums true_positives false_ones] in A, B. rewrite Qplus_0_l in A, B. apply result_share; [exact A|]. rewrite A, B. apply total_split.
Qed.
Theorem recall_share cs os : mapM observe cs = Ok os -> exists q, recall cs = Ok q /\ share (fun o => labelled o && predicted o) labelled (concat os) q.
Proof.
  intro H. destruct (fold_recall cs os no_sums H) as (s & E & A & B). unfold recall. rewrite E. cbn [bind]. eexists. split; [reflexivity|].
  cbn [no_sums true_positives false_ones] in A, B. rewrite Qplus_0_l in A, B. apply result_share; [exact A|]. rewrite A, B.
  rewrite <- (total_split predicted labelled). apply Qplus_comp; (erewrite total_ext; [reflexivity|]); intro x; cbn; apply andb_comm.
Qed.
Lemma fold_fails (up : sums -> call -> result sums) : (forall s c e, observe c = Err e -> up s c = Err e) -> (forall s c o, observe c = Ok o -> exists s', up s c = Ok s') ->
  forall cs s e, mapM observe cs = Err e -> foldM up cs s = Err e.
Proof.
  intros F G. induction cs as [|c cs IH]; intros s e H; cbn [mapM] in H; [discriminate H|]. cbn [foldM]. destruct (observe c) as [o|e'] eqn:E.
  - cbn [bind] in H. destruct (G s c o E) as (s' & ->). cbn [bind]. apply IH. destruct (mapM observe cs); [discriminate H|exact H].
  - cbn in H. injection H as ->. now rewrite (F s c e E).
Qed.
Theorem metrics_fail cs e : mapM observe cs = Err e -> precision cs = Err e /\ recall cs = Err e.
Proof.
  intro H. unfold precision, recall. rewrite (fold_fails update_precision) with (e := e), (fold_fails update_recall) with (e := e); auto.
  - intros s c e' E. unfold update_recall. now rewrite E.
  - intros s c o E. unfold update_recall. rewrite E. eexists. reflexivity.
  - intros s c e' E. unfold update_precision. now rewrite E.
  - intros s c o E. unfold update_precision. rewrite E. eexists. reflexivity.
Qed.
(** Order and batches do not matter. *)
Lemma total_perm f a b : Permutation a b -> (total f a == total f b)%Q.
Proof.
  induction 1 as [|x l l' P IH|x y l|l l' l'' P IH P' IH']; [reflexivity| | |now rewrite IH].
  - cbn [total fold_right]. unfold total in IH. destruct (f x); [now rewrite IH|exact IH].
  - cbn [total fold_right]. destruct (f x), (f y); try reflexivity. ring.
Qed.
Lemma share_unique part whole l m q r : Permutation l m -> share part whole l q -> share part whole m r -> (q == r)%Q.
Proof.
  intros P [(A & B)|(A & B)] [(C & D)|(C & D)]; rewrite <- (total_perm whole l m P) in C; try contradiction.
  - now rewrite B, D.
  - rewrite <- (total_perm whole l m P), <- (total_perm part l m P), <- B in D. apply (Qmult_inj_r _ _ _ A). now symmetry.
Qed.
Theorem order_free cs ds os ps : mapM observe cs = Ok os -> mapM observe ds = Ok ps -> Permutation (concat os) (concat ps) ->
  (exists q r, precision cs = Ok q /\ precision ds = Ok r /\ q == r)%Q /\ (exists q r, recall cs = Ok q /\ recall ds = Ok r /\ q == r)%Q.
Proof.
  intros H K P. split.
  - destruct (precision_share cs os H) as (q & E & S), (precision_share ds ps K) as (r & F & T). exists q, r. split; [exact E|]. split; [exact F|]. exact (share_unique _ _ _ _ _ _ P S T).
  - destruct (recall_share cs os H) as (q & E & S), (recall_share ds ps K) as (r & F & T). exists q, r. split; [exact E|]. split; [exact F|]. exact (share_unique _ _ _ _ _ _ P S T).
Qed.
Lemma total_nonneg f l : (forall o, In o l -> 0 <= snd o)%Q -> (0 <= total f l)%Q.
Proof.
  induction l as [|x l IH]; intro H; [apply Qle_refl|]. cbn [total fold_right]. specialize (IH (fun o I => H o (or_intror I))). unfold total in IH. specialize (H x (or_introl eq_refl)).
  destruct (f x); [|exact IH]. lra.
Qed.
Lemma total_zero f l : (forall o, In o l -> 0 <= snd o)%Q -> (total f l == 0)%Q -> forall o, In o l -> f o = true -> (snd o == 0)%Q.
Proof.
  induction l as [|x l IH]; intros H E o I F; [destruct I|]. pose proof (total_nonneg f l (fun o I => H o (or_intror I))) as P. pose proof (H x (or_introl eq_refl)) as Hx.
  cbn [total fold_right] in E. fold (total f l) in E. destruct I as [->|I].
  - rewrite F in E. lra.
  - apply IH; auto; [intros y Y; apply H; now right|]. destruct (f x); [lra|exact E].
Qed.
Lemma total_all_zero f l : (forall o, In o l -> f o = true -> snd o == 0)%Q -> (total f l == 0)%Q.
Proof.
  induction l as [|x l IH]; intro H; [reflexivity|]. cbn [total fold_right]. fold (total f l).
  assert (Z : (total f l == 0)%Q) by (apply IH; intros o I; apply H; now right).
  destruct (f x) eqn:E; [|exact Z]. rewrite Z, (H x (or_introl eq_refl) E). reflexivity.
Qed.
Theorem share_range part whole l q : (forall o, In o l -> 0 <= snd o)%Q -> share (fun o => part o && whole o) whole l q ->
  (0 <= q <= 1)%Q /\ (q == 1 <-> (exists o, In o l /\ whole o = true /\ 0 < snd o) /\ forall o, In o l -> whole o = true -> part o = false -> snd o == 0)%Q.
Proof.
  intros H S. pose proof (total_nonneg (fun o => part o && whole o) l H) as P. pose proof (total_nonneg whole l H) as W. pose proof (total_nonneg (fun o => negb (part o) && whole o) l H) as N.
  pose proof (total_split part whole l) as T. destruct S as [(A & B)|(A & B)].
  - split; [rewrite B; split; discriminate|]. split; [intro E; rewrite B in E; discriminate E|]. intros ((o & I & F & G) & _). pose proof (total_zero whole l H A o I F). lra.
  - assert (W' : (0 < total whole l)%Q) by lra. split.
    + split; [apply (Qmult_le_r _ _ _ W')|apply (Qmult_le_r _ _ _ W')]; rewrite B; lra.
    + split.
      * intro E. rewrite E in B. split.
        -- destruct (existsb (fun o => whole o && negb (Qle_bool (snd o) 0)) l) eqn:X.
           ++ apply existsb_exists in X. destruct X as (o & I & X). apply andb_true_iff in X. destruct X as (F & G). exists o. split; [exact I|]. split; [exact F|].
              apply negb_true_iff in G. apply Qnot_le_lt. intro Q. apply Qle_bool_iff in Q. congruence.
           ++ exfalso. apply A. apply total_all_zero. intros o I F. apply Qle_antisym; [|now apply H]. apply Qle_bool_iff.
              destruct (Qle_bool (snd o) 0) eqn:G; [reflexivity|]. assert (existsb (fun o => whole o && negb (Qle_bool (snd o) 0)) l = true) by (apply existsb_exists; exists o; split; [exact I|]; now rewrite F, G). congruence.
        -- intros o I F G. apply (total_zero (fun o => negb (part o) && whole o) l H); [lra|exact I|]. now rewrite F, G.
      * intros (_ & Z). assert (total (fun o => negb (part o) && whole o) l == 0)%Q as E.
        { apply total_all_zero. intros o I F. apply andb_true_iff in F. destruct F as (F & G). apply negb_true_iff in F. now apply Z. }
        rewrite E in T. assert (q * total whole l == 1 * total whole l)%Q as X by lra. now apply (Qmult_inj_r _ _ _ A).
Qed.
(** Observations. *)
Theorem observe_outcome c : let sh := shape (visibility (gt c)) in
  ((exists o, observe c = Ok o) <-> shape (location (gt c)) = shape (location (pr c)) /\ sh = shape (visibility (pr c)) /\
     (forall d, box_dims c = Some d -> last (shape (location (gt c))) 0%nat = d) /\
     (forall w, weights c = Some w -> shape w = [] \/ shape w = removelast sh \/ shape w = sh)) /\
  (forall e, observe c = Err e -> e = ValueError).
Proof.
  cbn zeta. unfold observe, checks, dims. split.
  - split.
    + intros (o & H). destruct (_ && _) eqn:C; [|discriminate H]. cbn [negb] in H. apply andb_true_iff in C. destruct C as (C & D). apply andb_true_iff in C. destruct C as (A & B).
      apply shape_eqb_iff in A, B. split; [exact A|]. split; [exact B|]. split.
      * intros d E. rewrite E in D. now apply Nat.eqb_eq in D.
      * intros w E. rewrite E in H. unfold expand_weights in H. destruct (shape_eqb (shape w) []) eqn:X; [left; now apply shape_eqb_iff|].
        destruct (shape_eqb (shape w) (removelast _)) eqn:Y; [right; left; now apply shape_eqb_iff|].
        destruct (shape_eqb (shape w) (shape (visibility (gt c)))) eqn:Z; [right; right; now apply shape_eqb_iff|discriminate H].
    + intros (A & B & D & W). rewrite (proj2 (shape_eqb_iff _ _) A), (proj2 (shape_eqb_iff _ _) B).
      assert (E : match box_dims c with None => true | Some d => Nat.eqb (last (shape (location (gt c))) 0%nat) d end = true).
      { destruct (box_dims c) as [d|]; [|reflexivity]. apply Nat.eqb_eq. now apply D. }
      rewrite E. cbn [andb negb]. unfold expand_weights. destruct (weights c) as [w|]; [|eexists; reflexivity]. specialize (W w eq_refl).
      destruct (shape_eqb (shape w) []) eqn:X; [eexists; reflexivity|]. destruct (shape_eqb (shape w) (removelast _)) eqn:Y; [eexists; reflexivity|].
      destruct (shape_eqb (shape w) (shape (visibility (gt c)))) eqn:Z; [eexists; reflexivity|]. exfalso.
      destruct W as [W|[W|W]]; apply shape_eqb_iff in W; congruence.
  - intros e H. destruct (negb _); [now injection H as <-|]. unfold expand_weights in H. destruct (weights c) as [w|]; [|discriminate H].
    destruct (shape_eqb (shape w) []); [discriminate H|]. destruct (shape_eqb (shape w) (removelast _)); [discriminate H|].
    destruct (shape_eqb (shape w) _); [discriminate H|]. now injection H as <-.
Qed.
Lemma offset_snoc sh idx m j : length sh = length idx -> offset (sh ++ [m]) (idx ++ [j]) = (offset sh idx * m + j)%nat.
Proof.
  revert idx; induction sh as [|s sh IH]; intros [|i idx] L; try discriminate L; [cbn; lia|]. injection L as L. cbn [app offset]. rewrite (IH idx L).
  assert (P : prod (sh ++ [m]) = (prod sh * m)%nat) by (clear; induction sh as [|s sh IH]; cbn [app fold_right]; [lia|]; rewrite IH; lia). rewrite P. lia.
Qed.
Lemma repeat_each_nth {A} (l : list A) m k j : (j < m)%nat -> nth_error (flat_map (fun x => repeat x m) l) (k * m + j) = nth_error l k.
Proof.
  intro J. revert k; induction l as [|x l IH]; intro k; cbn [flat_map]; [destruct (k * m + j)%nat, k; reflexivity|].
  destruct k as [|k].
  - rewrite nth_error_app1 by (rewrite repeat_length; lia). cbn [nth_error Nat.mul Nat.add]. apply nth_error_repeat. exact J.
  - rewrite nth_error_app2 by (rewrite repeat_length; lia). rewrite repeat_length. replace (S k * m + j - m)%nat with (k * m + j)%nat by lia. apply IH.
Qed.
Lemma combine_nth_some {A B} (a : list A) : forall (b : list B) k x y, nth_error a k = Some x -> nth_error b k = Some y -> nth_error (combine a b) k = Some (x, y).
Proof.
  induction a as [|u a IH]; intros [|v b] k x y X Y; destruct k; try discriminate; cbn in *; [congruence|]. now apply IH.
Qed.
Theorem observed c o idx : let sh := shape (visibility (gt c)) in made_keypoints (gt c) -> full (visibility (gt c)) -> full (visibility (pr c)) ->
  (forall w, weights c = Some w -> full w) -> observe c = Ok o -> valid sh idx ->
  exists g p w, entry (visibility (gt c)) idx = Some g /\ entry (visibility (pr c)) idx = Some p /\ weight_at sh (weights c) idx = Some w /\
    nth_error o (offset sh idx) = Some (Z.ltb 1 g, Z.ltb 1 p, w).
Proof.
  cbn zeta. intros M Fg Fp Fw H V. destruct (proj1 (proj1 (observe_outcome c)) (ex_intro _ o H)) as (_ & Sh & _ & W).
  set (sh := shape (visibility (gt c))) in *. assert (Vp : valid (shape (visibility (pr c))) idx) by now rewrite <- Sh.
  destruct (valid_some _ _ Fg V) as (g & G), (valid_some _ _ Fp Vp) as (p & P). unfold observe in H. destruct (negb _); [discriminate H|]. fold sh in H.
  pose proof (offset_lt _ _ V) as O.
  assert (Nsh : sh <> []).
  { destruct M as (h & M). apply make_ok in M. destruct M as (Rk & E & _). unfold rank in Rk. unfold sh. rewrite E. destruct (shape (location (gt c))) as [|x [|y l]]; cbn in Rk; destruct Rk; discriminate. }
  assert (exists l w, expand_weights sh (weights c) = Ok l /\ weight_at sh (weights c) idx = Some w /\ nth_error l (offset sh idx) = Some w) as (l & w & E & Wa & Wn).
  { unfold expand_weights, weight_at. destruct (weights c) as [w|]; [|eexists; exists 1%Q; split; [reflexivity|]; split; [reflexivity|]; now apply nth_error_repeat].
    specialize (Fw w eq_refl). destruct (shape_eqb (shape w) []) eqn:X.
    - apply shape_eqb_iff in X. eexists. exists (hd 0%Q (values w)). split; [reflexivity|]. rewrite X. unfold full in Fw. rewrite X in Fw. cbn in Fw. unfold entry. rewrite X. cbn.
      destruct (values w) as [|a l]; [discriminate Fw|]. split; [reflexivity|]. now apply nth_error_repeat.
    - assert (Nw : shape w <> []) by (intro Z; apply shape_eqb_iff in Z; congruence).
      assert (Dm : forall (A : Type) (a b : A), match shape w with [] => a | _ :: _ => b end = b) by (intros; destruct (shape w); [contradiction|reflexivity]).
      rewrite Dm. clear Dm. destruct (shape_eqb (shape w) (removelast sh)) eqn:Y.
      + apply shape_eqb_iff in Y. unfold rank. rewrite Y.
        assert (Lr : length sh = S (length (removelast sh))) by (rewrite (app_removelast_last 0%nat Nsh) at 1; rewrite app_length; cbn; lia).
        destruct (Nat.eqb_spec (length (removelast sh)) (length sh)); [lia|].
        assert (Vi : exists i' j, idx = i' ++ [j] /\ Forall2 lt i' (removelast sh) /\ (j < last sh 0)%nat).
        { unfold valid in V. rewrite (app_removelast_last 0%nat Nsh) in V. apply Forall2_app_inv_r in V. destruct V as (i' & t & V1 & V2 & ->).
          inversion V2 as [|j m t' n' J T]; subst. inversion T; subst. now exists i', j. }
        destruct Vi as (i' & j & -> & Vi & J). rewrite removelast_last.
        assert (Vw : valid (shape w) i') by (unfold valid; now rewrite Y). destruct (valid_some _ _ Fw Vw) as (x & Xe). eexists. exists x. split; [reflexivity|]. split; [exact Xe|].
        assert (Eo : offset sh (i' ++ [j]) = (offset (removelast sh) i' * last sh 0 + j)%nat).
        { rewrite <- offset_snoc; [now rewrite <- (app_removelast_last 0%nat Nsh)|]. clear - Vi. induction Vi; [reflexivity|]. cbn. now f_equal. }
        rewrite Eo, repeat_each_nth by exact J. unfold entry in Xe. now rewrite Y in Xe.
      + destruct (shape_eqb (shape w) sh) eqn:Z.
        * apply shape_eqb_iff in Z. unfold rank. rewrite Z, Nat.eqb_refl. assert (Vw : valid (shape w) idx) by (now rewrite Z). destruct (valid_some _ _ Fw Vw) as (x & Xe).
          eexists. exists x. split; [reflexivity|]. split; [exact Xe|]. unfold entry in Xe. now rewrite Z in Xe.
        * exfalso. destruct (W w eq_refl) as [Q|[Q|Q]]; apply shape_eqb_iff in Q; congruence. }
  rewrite E in H. cbn [bind] in H. injection H as <-. exists g, p, w. split; [exact G|]. split; [exact P|]. split; [exact Wa|].
  apply combine_nth_some; [|exact Wn]. apply combine_nth_some; cbn [is_fully_visible values]; rewrite nth_error_map.
  - unfold entry in G. fold sh in G. now rewrite G.
  - unfold entry in P. rewrite <- Sh in P. now rewrite P.
Qed.
(** Swapping labels and predictions swaps precision and recall. *)
Lemma swap_combine (a b : list bool) (w : list Q) : combine (combine b a) w = map (fun o => (snd (fst o), fst (fst o), snd o)) (combine (combine a b) w).
Proof.
  revert b w; induction a as [|x a IH]; intros [|y b] w; try reflexivity. destruct w as [|z w]; [reflexivity|]. cbn [combine map fst snd]. now rewrite IH.
Qed.
Lemma observe_swapped c o : observe c = Ok o -> observe (swapped c) = Ok (map (fun x => (snd (fst x), fst (fst x), snd x)) o).
Proof.
  intro H. destruct (proj1 (proj1 (observe_outcome c)) (ex_intro _ o H)) as (L & Sh & D & _). unfold observe in *. cbn [swapped gt pr box_dims weights].
  assert (C : checks (pr c) (gt c) (box_dims c) = true).
  { unfold checks, dims. rewrite (proj2 (shape_eqb_iff _ _) (eq_sym L)), (proj2 (shape_eqb_iff _ _) (eq_sym Sh)). cbn [andb].
    destruct (box_dims c) as [d|]; [|reflexivity]. apply Nat.eqb_eq. rewrite <- L. now apply D. }
  rewrite C. cbn [negb]. destruct (negb _); [discriminate H|]. rewrite <- Sh. destruct (expand_weights _ _) as [w|]; [|discriminate H]. cbn [bind] in *. injection H as <-.
  now rewrite swap_combine.
Qed.
Lemma total_map f l : total f (map (fun x => (snd (fst x), fst (fst x), snd x)) l) = total (fun x => f (snd (fst x), fst (fst x), snd x)) l.
Proof. induction l as [|x l IH]; [reflexivity|]. cbn [map total fold_right snd]. unfold total in IH. now rewrite IH. Qed.
Theorem swap_dual cs os : mapM observe cs = Ok os -> exists q r, precision (map swapped cs) = Ok q /\ recall cs = Ok r /\ (q == r)%Q.
Proof.
  intro H. set (f := map (fun x : observation => (snd (fst x), fst (fst x), snd x))).
  assert (K : mapM observe (map swapped cs) = Ok (map f os)).
  { revert os H. induction cs as [|c cs IH]; intros os H; cbn [mapM map] in *; [now injection H as <-|]. destruct (observe c) as [o|] eqn:E; [|discriminate H].
    rewrite (observe_swapped c o E). cbn [bind] in *. destruct (mapM observe cs) as [os'|]; [|discriminate H]. injection H as <-. rewrite (IH os' eq_refl). reflexivity. }
  destruct (precision_share _ _ K) as (q & Q & Sq), (recall_share cs os H) as (r & R & Sr). exists q, r. split; [exact Q|]. split; [exact R|].
  unfold f in Sq. rewrite <- concat_map in Sq. unfold share in Sq. rewrite !total_map in Sq.
  apply (share_unique (fun o => labelled o && predicted o) labelled (concat os) (concat os)); [apply Permutation_refl| |exact Sr].
  unfold share. rewrite (total_ext (fun o : observation => labelled o && predicted o) (fun x : observation => labelled (snd (fst x), fst (fst x), snd x) && predicted (snd (fst x), fst (fst x), snd x)))
    by (intro x; apply andb_comm). exact Sq.
Qed.
(** Occluded and missing keypoints are the same to these metrics, and where the keypoints are does not matter. *)
Theorem only_visible c d : shape (location (gt c)) = shape (location (gt d)) -> shape (location (pr c)) = shape (location (pr d)) ->
  shape (visibility (gt c)) = shape (visibility (gt d)) -> shape (visibility (pr c)) = shape (visibility (pr d)) ->
  Forall2 (fun a b => (1 < a)%Z <-> (1 < b)%Z) (values (visibility (gt c))) (values (visibility (gt d))) ->
  Forall2 (fun a b => (1 < a)%Z <-> (1 < b)%Z) (values (visibility (pr c))) (values (visibility (pr d))) ->
  box_dims c = box_dims d -> weights c = weights d -> observe c = observe d.
Proof.
  intros A B C D E F G H. unfold observe, checks, dims, is_fully_visible. cbn [values]. rewrite A, B, C, D, G, H.
  assert (X : forall a b, Forall2 (fun a b => (1 < a)%Z <-> (1 < b)%Z) a b -> map (fun v => Z.ltb 1 v) a = map (fun v => Z.ltb 1 v) b).
  { induction 1 as [|x y a b XY P IH]; [reflexivity|]. cbn [map]. rewrite IH. f_equal. apply Bool.eq_iff_eq_true. now rewrite !Z.ltb_lt. }
  now rewrite (X _ _ E), (X _ _ F).
Qed.
