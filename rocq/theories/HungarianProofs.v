From Coq Require Import Permutation.
From Verif Require Import Base HungarianModel HungarianSpec.
Open Scope Z_scope.

(** ** Generic list facts *)

Lemma upd_length {A} (l : list A) i v : length (upd l i v) = length l.
Proof. revert i. induction l as [|a l IH]; intros [|i]; simpl; auto. Qed.

Lemma nth_upd_eq {A} (l : list A) i v d : (i < length l)%nat -> nth i (upd l i v) d = v.
Proof. revert i. induction l as [|a l IH]; intros [|i] H; simpl in *; try lia; auto. apply IH. lia. Qed.

Lemma nth_upd_neq {A} (l : list A) i j v d : i <> j -> nth j (upd l i v) d = nth j l d.
Proof.
  revert i j. induction l as [|a l IH]; intros [|i] [|j] H; simpl; auto; try congruence.
Qed.

Lemma mem_In i s : mem i s = true <-> In i s.
Proof.
  unfold mem. rewrite existsb_exists. split.
  - intros (x & Hx & E). apply Nat.eqb_eq in E. now subst.
  - intros H. exists i. split; [exact H|apply Nat.eqb_refl].
Qed.

Lemma mem_false i s : mem i s = false <-> ~ In i s.
Proof.
  rewrite <- mem_In. destruct (mem i s); split; intros; congruence.
Qed.

Lemma insert_In i j s : In j (insert i s) <-> j = i \/ In j s.
Proof.
  unfold insert. destruct (mem i s) eqn:E.
  - apply mem_In in E. split; [auto|]. intros [->|H]; auto.
  - rewrite in_app_iff. simpl. intuition.
Qed.

Lemma NoDup_snoc {A} (l : list A) a : NoDup l -> ~ In a l -> NoDup (l ++ [a]).
Proof.
  intros H Hn. apply (Permutation_NoDup (l := a :: l)).
  - apply Permutation_cons_append.
  - now constructor.
Qed.

Lemma Forall_nth_lt (P : nat -> Prop) l k : Forall P l -> (k < length l)%nat -> P (nth k l 0%nat).
Proof. intros H Hk. rewrite Forall_forall in H. apply H. now apply nth_In. Qed.

Lemma nth_app_lt {A} (l l' : list A) k d : (k < length l)%nat -> nth k (l ++ l') d = nth k l d.
Proof. apply app_nth1. Qed.

Lemma nth_snoc {A} (l : list A) a d : nth (length l) (l ++ [a]) d = a.
Proof. rewrite app_nth2 by lia. now rewrite Nat.sub_diag. Qed.


Lemma Zsum_perm l l' : Permutation l l' -> Zsum l = Zsum l'.
Proof. unfold Zsum. induction 1; simpl; lia. Qed.

Lemma Zsum_map_add {A} (f g : A -> Z) l : Zsum (map (fun x => f x + g x) l) = Zsum (map f l) + Zsum (map g l).
Proof. unfold Zsum. induction l as [|a l IH]; simpl; lia. Qed.

Lemma Zsum_map_le {A} (f g : A -> Z) l :
  (forall x, In x l -> f x <= g x) -> Zsum (map f l) <= Zsum (map g l).
Proof.
  unfold Zsum. induction l as [|a l IH]; intros H; simpl; [lia|].
  pose proof (H a (or_introl eq_refl)). pose proof (IH (fun x Hx => H x (or_intror Hx))). lia.
Qed.

Lemma Zsum_map_ext {A} (f g : A -> Z) l :
  (forall x, In x l -> f x = g x) -> Zsum (map f l) = Zsum (map g l).
Proof. intros H. f_equal. now apply map_ext_in. Qed.

Lemma assignment_bound n sigma i : assignment n sigma -> (i < n)%nat -> (nth i sigma 0 < n)%nat.
Proof.
  intros HP Hi.
  assert (Hl : length sigma = n) by (rewrite (Permutation_length HP); apply seq_length).
  assert (Hin : In (nth i sigma 0%nat) (seq 0 n)).
  { apply (Permutation_in _ HP). apply nth_In. lia. }
  apply in_seq in Hin. lia.
Qed.

Definition is_none {A} (o : option A) : bool := match o with None => true | Some _ => false end.
Definition count_none (l : list (option nat)) : nat := length (filter is_none l).

Lemma find_none_le l : (find_none l <= length l)%nat.
Proof. induction l as [|[a|] l IH]; simpl; lia. Qed.

Lemma find_none_spec l : (find_none l < length l)%nat -> nth (find_none l) l None = None.
Proof. induction l as [|[a|] l IH]; simpl; intros H; [lia| |reflexivity]. apply IH. lia. Qed.

Lemma find_none_all l : find_none l = length l -> forall i, (i < length l)%nat -> nth i l None <> None.
Proof.
  induction l as [|[a|] l IH]; simpl; intros H i Hi; [lia| |lia].
  destruct i as [|i]; [discriminate|]. apply IH; lia.
Qed.

Lemma count_none_mono l : forall l', length l = length l' ->
  (forall i, nth i l None <> None -> nth i l' None <> None) -> (count_none l' <= count_none l)%nat.
Proof.
  unfold count_none. induction l as [|a l IH]; intros [|b l'] Hl H; simpl in Hl; try lia.
  pose proof (IH l' ltac:(lia) (fun i => H (S i))) as IH'. pose proof (H 0%nat) as H0. simpl in H0.
  destruct a, b; simpl; try lia. exfalso. apply H0; [discriminate|reflexivity].
Qed.

Lemma count_none_lt l : forall l' i0, length l = length l' ->
  (forall i, nth i l None <> None -> nth i l' None <> None) ->
  (i0 < length l)%nat -> nth i0 l None = None -> nth i0 l' None <> None ->
  (count_none l' < count_none l)%nat.
Proof.
  induction l as [|a l IH]; intros [|b l'] i0 Hl H Hi E1 E2; simpl in Hl, Hi; try lia.
  destruct i0 as [|i0].
  - simpl in E1, E2. subst a. destruct b; [|congruence].
    pose proof (count_none_mono l l' ltac:(lia) (fun i => H (S i))). unfold count_none in *. simpl. lia.
  - pose proof (IH l' i0 ltac:(lia) (fun i => H (S i)) ltac:(lia) E1 E2) as IH'.
    pose proof (H 0%nat) as H0. simpl in H0. unfold count_none in *.
    destruct a, b; simpl; try lia. exfalso. apply H0; [discriminate|reflexivity].
Qed.

Lemma fold_max_spec (f : nat -> Z) js : forall a,
  let r := fold_left (fun a j => Z.max a (f j)) js a in
  a <= r /\ (forall j, In j js -> f j <= r) /\ (r = a \/ exists j, In j js /\ r = f j).
Proof.
  induction js as [|j js IH]; intros a; cbn [fold_left].
  - split; [lia|]. split; [intros j []|now left].
  - destruct (IH (Z.max a (f j))) as (H1 & H2 & H3). split; [lia|]. split.
    + intros k [<-|Hk]; [lia|now apply H2].
    + destruct H3 as [H3|(k & Hk & E)]; [|right; exists k; simpl; auto].
      destruct (Z.max_spec a (f j)) as [[_ E]|[_ E]]; [right; exists j; simpl; split; [auto|lia]|left; lia].
Qed.

Lemma nth_repeat_none k (l : nat) : nth k (repeat (@None nat) l) None = None.
Proof. revert k. induction l as [|l IH]; intros [|k]; simpl; auto. Qed.

Lemma lab_repeat0 k l : lab (repeat 0 l) k = 0.
Proof. unfold lab. revert k. induction l as [|l IH]; intros [|k]; simpl; auto. Qed.

(** ** Invariants *)
Section Graph.
Variable n : nat.
Variable edge : list Z.
Variable W : Z.
Hypothesis HW : W <= 1073741823.
Hypothesis Hw : forall i j, (i < n)%nat -> (j < n)%nat -> 0 <= weight n edge i j <= W.

Notation w := (weight n edge).
Definition tight (lx ly : list Z) (i j : nat) : Prop := lab lx i + lab ly j = w i j.

Record MI (lx ly : list Z) (m : matching) : Prop := {
  mi_p : length (pm m) = n;
  mi_ip : length (ipm m) = n;
  mi_fwd : forall i j, get_j m i = Some j -> (i < n)%nat /\ (j < n)%nat /\ get_i m j = Some i;
  mi_bwd : forall i j, get_i m j = Some i -> (i < n)%nat /\ (j < n)%nat /\ get_j m i = Some j;
  mi_tight : forall i j, get_j m i = Some j -> tight lx ly i j }.

Record LI (lx ly : list Z) (m : matching) : Prop := {
  li_x : length lx = n;
  li_y : length ly = n;
  li_feas : forall i j, (i < n)%nat -> (j < n)%nat -> w i j <= lab lx i + lab ly j;
  li_pos : forall j, (j < n)%nat -> 0 <= lab ly j;
  li_free : forall j, (j < n)%nat -> get_i m j = None -> lab ly j = 0;
  li_le : forall i, (i < n)%nat -> lab lx i <= W }.

Record NI (lx ly : list Z) (s N pN : list nat) : Prop := {
  ni_nodup : NoDup N;
  ni_bound : Forall (fun j => j < n)%nat N;
  ni_in : forall j, (j < n)%nat -> (In j N <-> exists i, In i s /\ tight lx ly i j);
  ni_len : length pN = length N;
  ni_par : forall k, (k < length N)%nat ->
    (nth k pN 0 < length s)%nat /\ tight lx ly (nth (nth k pN 0%nat) s 0%nat) (nth k N 0%nat) }.

Record AT (lx ly : list Z) (m : matching) (i0 : nat) (s t pt : list nat) : Prop := {
  at_root : nth 0 s 0%nat = i0;
  at_free : get_j m i0 = None;
  at_snodup : NoDup s;
  at_sbound : Forall (fun i => i < n)%nat s;
  at_tnodup : NoDup t;
  at_tbound : Forall (fun j => j < n)%nat t;
  at_len : length s = S (length t);
  at_plen : length pt = length t;
  at_mate : forall k, (k < length t)%nat -> get_i m (nth k t 0%nat) = Some (nth (S k) s 0%nat);
  at_par : forall k, (k < length t)%nat ->
    (nth k pt 0 <= k)%nat /\ tight lx ly (nth (nth k pt 0%nat) s 0%nat) (nth k t 0%nat) }.

Lemma free_column lx ly m i0 :
  MI lx ly m -> (i0 < n)%nat -> get_j m i0 = None ->
  exists j, (j < n)%nat /\ get_i m j = None.
Proof.
  intros HM Hi Hf.
  destruct (find (fun j => match get_i m j with None => true | Some _ => false end) (seq 0 n)) eqn:E.
  - apply find_some in E as [E1 E2]. apply in_seq in E1. exists n0. split; [lia|].
    destruct (get_i m n0); congruence.
  - exfalso. pose proof (List.find_none _ _ E) as Hall.
    set (g := fun j => match get_i m j with Some i => i | None => 0%nat end).
    assert (HS : forall j, (j < n)%nat -> get_i m j = Some (g j)).
    { intros j Hj. specialize (Hall j (proj2 (in_seq n 0 j) ltac:(lia))). cbv beta in Hall. unfold g.
      destruct (get_i m j); [reflexivity|]. discriminate Hall. }
    assert (Hnd : NoDup (i0 :: map g (seq 0 n))).
    { constructor.
      - intros Hin. apply in_map_iff in Hin as (j & Ej & Hj). apply in_seq in Hj.
        pose proof (HS j ltac:(lia)) as Hs. rewrite Ej in Hs.
        apply (mi_bwd _ _ _ HM) in Hs as (_ & _ & Hs). congruence.
      - apply (NoDup_nth _ (g 0%nat)). rewrite map_length, seq_length. intros a b Ha Hb E2.
        rewrite !map_nth, !seq_nth in E2 by lia. simpl in E2.
        pose proof (HS a Ha) as Hsa. pose proof (HS b Hb) as Hsb. rewrite E2 in Hsa.
        apply (mi_bwd _ _ _ HM) in Hsa as (_ & _ & Hsa).
        apply (mi_bwd _ _ _ HM) in Hsb as (_ & _ & Hsb). congruence. }
    assert (Hinc : incl (i0 :: map g (seq 0 n)) (seq 0 n)).
    { intros x [<-|Hx]; [apply in_seq; lia|].
      apply in_map_iff in Hx as (j & <- & Hj). apply in_seq in Hj. apply in_seq.
      destruct (mi_bwd _ _ _ HM _ _ (HS j ltac:(lia))). lia. }
    pose proof (NoDup_incl_length Hnd Hinc) as Hl. simpl in Hl.
    rewrite map_length, !seq_length in Hl. lia.
Qed.

Lemma label_bounds lx ly m :
  MI lx ly m -> LI lx ly m -> (exists j, (j < n)%nat /\ get_i m j = None) ->
  (forall i, (i < n)%nat -> 0 <= lab lx i <= W) /\ (forall j, (j < n)%nat -> 0 <= lab ly j <= W).
Proof.
  intros HM HL (j0 & Hj0 & Hfree).
  assert (Hx : forall i, (i < n)%nat -> 0 <= lab lx i <= W).
  { intros i Hi. split; [|now apply (li_le _ _ _ HL)].
    pose proof (li_feas _ _ _ HL i j0 Hi Hj0). pose proof (li_free _ _ _ HL j0 Hj0 Hfree).
    pose proof (Hw i j0 Hi Hj0). lia. }
  split; [exact Hx|]. intros j Hj. split; [now apply (li_pos _ _ _ HL)|].
  destruct (get_i m j) as [i|] eqn:E.
  - destruct (mi_bwd _ _ _ HM _ _ E) as (Hi & _ & Ej).
    pose proof (mi_tight _ _ _ HM _ _ Ej) as Ht. unfold tight in Ht.
    pose proof (Hx i Hi). pose proof (Hw i j Hi Hj). lia.
  - rewrite (li_free _ _ _ HL j Hj E). pose proof (Hw j0 j0 Hj0 Hj0). lia.
Qed.

(** ** AddNeighbours and FindNeighbours *)

Definition bounded_labels (lx ly : list Z) : Prop :=
  (forall i, (i < n)%nat -> 0 <= lab lx i <= W) /\ (forall j, (j < n)%nat -> 0 <= lab ly j <= W).

Lemma insert_fold lx ly i js : forall N,
  NoDup N ->
  let N' := fold_left (fun N j => if lab lx i + lab ly j =? w i j then insert j N else N) js N in
  exists new, N' = N ++ new /\ NoDup N' /\
    (forall j, In j new -> In j js /\ tight lx ly i j) /\
    (forall j, In j N' <-> In j N \/ (In j js /\ tight lx ly i j)).
Proof.
  induction js as [|j js IH]; intros N Hnd; cbn [fold_left].
  - exists []. rewrite app_nil_r. split; [reflexivity|]. split; [exact Hnd|].
    split; [intros j []|]. intros j. simpl. tauto.
  - destruct (Z.eqb_spec (lab lx i + lab ly j) (w i j)) as [Et|Et].
    + destruct (mem j N) eqn:Em; unfold insert; rewrite Em.
      * destruct (IH N Hnd) as (new & E1 & E2 & E3 & E4).
        exists new. split; [exact E1|]. split; [exact E2|].
        split; [intros k Hk; destruct (E3 k Hk); simpl; auto|].
        intros k. rewrite E4. apply mem_In in Em. simpl. split; [tauto|].
        intros [H|[[<-|H] H']]; auto.
      * apply mem_false in Em. destruct (IH (N ++ [j]) (NoDup_snoc _ _ Hnd Em)) as (new & E1 & E2 & E3 & E4).
        exists (j :: new). rewrite <- app_assoc in E1. split; [exact E1|]. split; [exact E2|]. split.
        -- intros k [<-|Hk]; [split; [now left|exact Et]|]. destruct (E3 k Hk). simpl. auto.
        -- intros k. rewrite E4, in_app_iff. simpl. split.
           ++ intros [[H|[<-|[]]]|H]; auto. right. tauto.
           ++ intros [H|[[<-|H] H']]; auto.
    + destruct (IH N Hnd) as (new & E1 & E2 & E3 & E4).
      exists new. split; [exact E1|]. split; [exact E2|].
      split; [intros k Hk; destruct (E3 k Hk); simpl; auto|].
      intros k. rewrite E4. simpl. split; [tauto|].
      intros [H|[[<-|H] H']]; auto. contradiction.
Qed.

Lemma add_neighbours_ok lx ly s i N pN :
  bounded_labels lx ly -> (i < n)%nat -> NI lx ly s N pN ->
  exists N' pN', add_neighbours n edge lx ly i (length s) (N, pN) = Ok (N', pN') /\
    NI lx ly (s ++ [i]) N' pN' /\ (exists new, N' = N ++ new).
Proof.
  intros [Hbx Hby] Hi HN. unfold add_neighbours. cbn [fst snd].
  replace (forallb (fun j => in_int (lab lx i + lab ly j)) (seq 0 n)) with true.
  2:{ symmetry. apply forallb_forall. intros j Hj. apply in_seq in Hj.
      pose proof (Hbx i Hi). pose proof (Hby j ltac:(lia)). unfold in_int, int_max. lia. }
  destruct (insert_fold lx ly i (seq 0 n) N (ni_nodup _ _ _ _ _ HN)) as (new & E1 & E2 & E3 & E4).
  set (N' := fold_left _ _ _) in *. clearbody N'.
  eexists _, _. split; [reflexivity|]. split; [|eauto].
  assert (Hlen : (length N' - length N)%nat = length new) by (rewrite E1, app_length; lia).
  rewrite Hlen. constructor.
  - exact E2.
  - apply Forall_forall. intros j Hj. apply E4 in Hj as [Hj|[Hj _]].
    + pose proof (ni_bound _ _ _ _ _ HN) as Hb. rewrite Forall_forall in Hb. auto.
    + apply in_seq in Hj. lia.
  - intros j Hj. rewrite E4, (ni_in _ _ _ _ _ HN j Hj). split.
    + intros [(k & Hk & Ht)|[_ Ht]].
      * exists k. split; [apply in_app_iff; now left|exact Ht].
      * exists i. split; [apply in_app_iff; right; now left|exact Ht].
    + intros (k & Hk & Ht). apply in_app_iff in Hk as [Hk|[<-|[]]].
      * left. eauto.
      * right. split; [apply in_seq; lia|exact Ht].
  - rewrite app_length, repeat_length, (ni_len _ _ _ _ _ HN), E1, app_length. lia.
  - intros k Hk. rewrite app_length. cbn [length].
    destruct (Nat.lt_ge_cases k (length N)) as [Hlt|Hge].
    + destruct (ni_par _ _ _ _ _ HN k Hlt) as [H1 H2].
      pose proof (ni_len _ _ _ _ _ HN) as Hpl.
      rewrite (app_nth1 pN) by lia. rewrite E1, (app_nth1 N) by lia.
      split; [lia|]. rewrite app_nth1 by exact H1. exact H2.
    + rewrite E1, app_length in Hk.
      rewrite (app_nth2 pN) by (rewrite (ni_len _ _ _ _ _ HN); lia).
      rewrite (ni_len _ _ _ _ _ HN).
      rewrite (nth_indep _ 0%nat (length s)) by (rewrite repeat_length; lia).
      rewrite nth_repeat. split; [lia|]. rewrite nth_snoc, E1, app_nth2 by lia.
      apply E3. apply nth_In. lia.
Qed.

Lemma NI_empty lx ly : NI lx ly [] [] [].
Proof.
  constructor; [constructor|constructor| |reflexivity|intros k Hk; simpl in Hk; lia].
  intros j Hj. split; [intros []|]. intros (i & [] & _).
Qed.

Lemma find_neighbours_from_ok lx ly s : forall pre N pN,
  bounded_labels lx ly -> Forall (fun i => i < n)%nat s -> NI lx ly pre N pN ->
  exists N' pN', find_neighbours_from n edge lx ly (length pre) s (N, pN) = Ok (N', pN') /\
    NI lx ly (pre ++ s) N' pN'.
Proof.
  induction s as [|i s IH]; intros pre N pN Hb Hs HN.
  - exists N, pN. rewrite app_nil_r. auto.
  - inversion Hs as [|i' s' Hi Hs']; subst. cbn [find_neighbours_from].
    destruct (add_neighbours_ok lx ly pre i N pN Hb Hi HN) as (N1 & pN1 & E1 & HN1 & _).
    rewrite E1. cbn [bind].
    destruct (IH (pre ++ [i]) N1 pN1 Hb Hs' HN1) as (N2 & pN2 & E2 & HN2).
    rewrite app_length in E2. cbn [length] in E2. rewrite Nat.add_1_r in E2.
    exists N2, pN2. split; [exact E2|]. now rewrite <- app_assoc in HN2.
Qed.

Lemma find_neighbours_ok lx ly s :
  bounded_labels lx ly -> Forall (fun i => i < n)%nat s ->
  exists N pN, find_neighbours n edge lx ly s = Ok (N, pN) /\ NI lx ly s N pN.
Proof.
  intros Hb Hs. exact (find_neighbours_from_ok lx ly s [] [] [] Hb Hs (NI_empty lx ly)).
Qed.

(** ** ImproveFeasibleLabeling *)

Lemma slack_inner lx ly t i js : forall a,
  let r := fold_left (fun a j => if mem j t then a else Z.min a (lab lx i + lab ly j - w i j)) js a in
  r <= a /\ (forall j, In j js -> ~ In j t -> r <= lab lx i + lab ly j - w i j) /\
  (r = a \/ exists j, In j js /\ ~ In j t /\ r = lab lx i + lab ly j - w i j).
Proof.
  induction js as [|j js IH]; intros a; cbn [fold_left].
  - split; [lia|]. split; [intros j []|now left].
  - destruct (mem j t) eqn:Em.
    + destruct (IH a) as (H1 & H2 & H3). split; [exact H1|]. split.
      * intros k [<-|Hk] Hn; [apply mem_In in Em; contradiction|]. now apply H2.
      * destruct H3 as [H3|(k & Hk & Hn & E)]; [now left|]. right. exists k. simpl. auto.
    + apply mem_false in Em.
      destruct (IH (Z.min a (lab lx i + lab ly j - w i j))) as (H1 & H2 & H3).
      split; [lia|]. split.
      * intros k [<-|Hk] Hn; [lia|]. now apply H2.
      * destruct H3 as [H3|(k & Hk & Hn & E)].
        -- destruct (Z.min_spec a (lab lx i + lab ly j - w i j)) as [[_ E]|[_ E]].
           ++ left. lia.
           ++ right. exists j. split; [now left|]. split; [exact Em|]. lia.
        -- right. exists k. simpl. auto.
Qed.

Lemma slack_outer lx ly t s : forall a,
  let r := fold_left (fun a i =>
    fold_left (fun a j => if mem j t then a else Z.min a (lab lx i + lab ly j - w i j)) (seq 0 n) a) s a in
  r <= a /\
  (forall i j, In i s -> (j < n)%nat -> ~ In j t -> r <= lab lx i + lab ly j - w i j) /\
  (r = a \/ exists i j, In i s /\ (j < n)%nat /\ ~ In j t /\ r = lab lx i + lab ly j - w i j).
Proof.
  induction s as [|i s IH]; intros a; cbn [fold_left].
  - split; [lia|]. split; [intros i j []|now left].
  - destruct (slack_inner lx ly t i (seq 0 n) a) as (I1 & I2 & I3).
    set (b := fold_left _ (seq 0 n) a) in *. destruct (IH b) as (H1 & H2 & H3).
    split; [lia|]. split.
    + intros k j [<-|Hk] Hj Hn.
      * pose proof (I2 j ltac:(apply in_seq; lia) Hn). lia.
      * now apply H2.
    + destruct H3 as [H3|(k & j & Hk & Hj & Hn & E)].
      * destruct I3 as [I3|(j & Hj & Hn & E)]; [left; lia|].
        right. exists i, j. apply in_seq in Hj. simpl. repeat split; auto; lia.
      * right. exists k, j. simpl. auto.
Qed.

Lemma fold_upd_shift (c : Z) s : forall l,
  NoDup s -> Forall (fun i => i < length l)%nat s ->
  let r := fold_left (fun l i => upd l i (lab l i + c)) s l in
  length r = length l /\ (forall i, In i s -> lab r i = lab l i + c) /\
  (forall i, ~ In i s -> lab r i = lab l i).
Proof.
  induction s as [|i s IH]; intros l Hnd Hb; cbn [fold_left].
  - split; [reflexivity|]. split; [intros i []|reflexivity].
  - inversion Hnd as [|i' s' Hni Hnd']; subst. inversion Hb as [|i' s' Hi Hb']; subst.
    set (l1 := upd l i (lab l i + c)).
    assert (Hl1 : length l1 = length l) by apply upd_length.
    destruct (IH l1 Hnd' ltac:(now rewrite Hl1)) as (H1 & H2 & H3).
    split; [congruence|]. split.
    + intros k [<-|Hk].
      * rewrite H3 by exact Hni. unfold l1, lab. now rewrite nth_upd_eq.
      * rewrite H2 by exact Hk. unfold l1, lab. rewrite nth_upd_neq by congruence. reflexivity.
    + intros k Hk. simpl in Hk. rewrite H3 by tauto. unfold l1, lab.
      rewrite nth_upd_neq; [reflexivity|]. intros ->. tauto.
Qed.

Lemma mate_in_tree lx ly m i0 s t pt i j :
  MI lx ly m -> AT lx ly m i0 s t pt -> get_j m i = Some j -> (In i s <-> In j t).
Proof.
  intros HM HA E. split; intros Hin.
  - apply (In_nth _ _ 0%nat) in Hin as (k & Hk & Ek).
    destruct k as [|k].
    + rewrite (at_root _ _ _ _ _ _ _ HA) in Ek. subst i.
      rewrite (at_free _ _ _ _ _ _ _ HA) in E. discriminate.
    + rewrite (at_len _ _ _ _ _ _ _ HA) in Hk.
      pose proof (at_mate _ _ _ _ _ _ _ HA k ltac:(lia)) as Hm. rewrite Ek in Hm.
      apply (mi_bwd _ _ _ HM) in Hm as (_ & _ & Hm).
      assert (j = nth k t 0%nat) by congruence. subst j. apply nth_In. lia.
  - apply (In_nth _ _ 0%nat) in Hin as (k & Hk & Ek).
    pose proof (at_mate _ _ _ _ _ _ _ HA k Hk) as Hm. rewrite Ek in Hm.
    apply (mi_fwd _ _ _ HM) in E as (_ & _ & E).
    assert (i = nth (S k) s 0%nat) by congruence. subst i. apply nth_In.
    rewrite (at_len _ _ _ _ _ _ _ HA). lia.
Qed.

Lemma lab_in_int l : length l = n -> (forall i, (i < n)%nat -> 0 <= lab l i <= W) ->
  forallb in_int l = true.
Proof.
  intros Hl Hb. apply forallb_forall. intros x Hx. apply (In_nth _ _ 0) in Hx as (k & Hk & <-).
  specialize (Hb k ltac:(lia)). unfold lab in Hb. unfold in_int, int_max. lia.
Qed.

Lemma improve_ok lx ly m i0 s t pt :
  MI lx ly m -> LI lx ly m -> AT lx ly m i0 s t pt ->
  (exists j, (j < n)%nat /\ get_i m j = None) ->
  exists lx' ly', improve_labeling n edge lx ly s t = Ok (lx', ly') /\
    MI lx' ly' m /\ LI lx' ly' m /\ AT lx' ly' m i0 s t pt /\
    (exists i j, In i s /\ (j < n)%nat /\ ~ In j t /\ tight lx' ly' i j).
Proof.
  intros HM HL HA HU.
  destruct (label_bounds lx ly m HM HL HU) as [Bx By].
  pose proof (at_sbound _ _ _ _ _ _ _ HA) as Sb. rewrite Forall_forall in Sb.
  pose proof (at_tbound _ _ _ _ _ _ _ HA) as Tb. rewrite Forall_forall in Tb.
  unfold improve_labeling.
  replace (slacks_in_int n edge lx ly s t) with true.
  2:{ symmetry. unfold slacks_in_int. apply forallb_forall. intros i Hi. apply forallb_forall.
      intros j Hj. apply in_seq in Hj. pose proof (Bx i (Sb i Hi)). pose proof (By j ltac:(lia)).
      pose proof (Hw i j (Sb i Hi) ltac:(lia)). unfold in_int, int_max. lia. }
  destruct HU as (j0 & Hj0 & Hfree).
  assert (Hj0t : ~ In j0 t).
  { intros Hin. apply (In_nth _ _ 0%nat) in Hin as (k & Hk & Ek).
    pose proof (at_mate _ _ _ _ _ _ _ HA k Hk) as Hm. rewrite Ek in Hm. congruence. }
  assert (Hroot : In (nth 0 s 0%nat) s) by (apply nth_In; rewrite (at_len _ _ _ _ _ _ _ HA); lia).
  destruct (slack_outer lx ly t s int_max) as (S1 & S2 & S3).
  fold (slack_min n edge lx ly s t) in S1, S2, S3.
  set (a := slack_min n edge lx ly s t) in *.
  assert (Hatt : exists i j, In i s /\ (j < n)%nat /\ ~ In j t /\ a = lab lx i + lab ly j - w i j).
  { destruct S3 as [S3|S3]; [|exact S3].
    pose proof (S2 _ j0 Hroot Hj0 Hj0t) as H. pose proof (Bx _ (Sb _ Hroot)). pose proof (By j0 Hj0).
    pose proof (Hw _ j0 (Sb _ Hroot) Hj0). unfold int_max in S3. lia. }
  destruct Hatt as (i1 & j1 & Hi1 & Hj1 & Hj1t & Ea).
  assert (Ha0 : 0 <= a).
  { pose proof (li_feas _ _ _ HL i1 j1 (Sb _ Hi1) Hj1). lia. }
  assert (Ex : fold_left (fun l i => upd l i (lab l i - a)) s lx
             = fold_left (fun l i => upd l i (lab l i + (- a))) s lx) by reflexivity.
  rewrite Ex.
  destruct (fold_upd_shift (- a) s lx (at_snodup _ _ _ _ _ _ _ HA)
    ltac:(rewrite (li_x _ _ _ HL); exact (at_sbound _ _ _ _ _ _ _ HA))) as (X1 & X2 & X3).
  destruct (fold_upd_shift a t ly (at_tnodup _ _ _ _ _ _ _ HA)
    ltac:(rewrite (li_y _ _ _ HL); exact (at_tbound _ _ _ _ _ _ _ HA))) as (Y1 & Y2 & Y3).
  set (lx' := fold_left _ s lx) in *. set (ly' := fold_left _ t ly) in *. clearbody lx' ly'. clear Ex.
  assert (HM' : MI lx' ly' m).
  { constructor; try apply HM. intros i j E. pose proof (mi_tight _ _ _ HM _ _ E) as Ht.
    pose proof (mate_in_tree _ _ _ _ _ _ _ _ _ HM HA E) as Hiff. unfold tight in *.
    destruct (in_dec Nat.eq_dec i s) as [Hi|Hi].
    - rewrite X2, Y2 by tauto. lia.
    - rewrite X3, Y3 by tauto. lia. }
  assert (HL' : LI lx' ly' m).
  { constructor.
    - rewrite X1. apply HL.
    - rewrite Y1. apply HL.
    - intros i j Hi Hj. pose proof (li_feas _ _ _ HL i j Hi Hj).
      destruct (in_dec Nat.eq_dec i s) as [His|His]; destruct (in_dec Nat.eq_dec j t) as [Hjt|Hjt].
      + rewrite X2, Y2 by assumption. lia.
      + rewrite X2, Y3 by assumption. pose proof (S2 i j His Hj Hjt). lia.
      + rewrite X3, Y2 by assumption. lia.
      + rewrite X3, Y3 by assumption. lia.
    - intros j Hj. pose proof (li_pos _ _ _ HL j Hj).
      destruct (in_dec Nat.eq_dec j t) as [Hjt|Hjt]; [rewrite Y2 by assumption|rewrite Y3 by assumption]; lia.
    - intros j Hj E. rewrite Y3; [now apply (li_free _ _ _ HL)|].
      intros Hin. apply (In_nth _ _ 0%nat) in Hin as (k & Hk & Ek).
      pose proof (at_mate _ _ _ _ _ _ _ HA k Hk) as Hm. rewrite Ek in Hm. congruence.
    - intros i Hi. pose proof (li_le _ _ _ HL i Hi).
      destruct (in_dec Nat.eq_dec i s) as [His|His]; [rewrite X2 by assumption|rewrite X3 by assumption]; lia. }
  destruct (label_bounds lx' ly' m HM' HL' ltac:(eauto)) as [Bx' By'].
  rewrite (lab_in_int lx' (li_x _ _ _ HL') Bx'), (lab_in_int ly' (li_y _ _ _ HL') By'). cbn [andb].
  exists lx', ly'. split; [reflexivity|]. split; [exact HM'|]. split; [exact HL'|]. split.
  - destruct HA as [A1 A2 A3 A4 A5 A6 A7 A8 A9 A10]. constructor; try assumption.
    intros k Hk. destruct (A10 k Hk) as [P1 P2]. split; [exact P1|]. unfold tight in *.
    rewrite X2, Y2; [lia| |]; apply nth_In; lia.
  - exists i1, j1. repeat split; try assumption. unfold tight.
    rewrite X2, Y3 by assumption. lia.
Qed.

(** ** Refreshing N *)

Lemma tree_subset lx ly m i0 s t pt N pN :
  AT lx ly m i0 s t pt -> NI lx ly s N pN -> incl t N.
Proof.
  intros HA HN j Hj. apply (In_nth _ _ 0%nat) in Hj as (k & Hk & <-).
  pose proof (Forall_nth_lt _ _ k (at_tbound _ _ _ _ _ _ _ HA) Hk) as Hb. simpl in Hb.
  apply (ni_in _ _ _ _ _ HN _ Hb). destruct (at_par _ _ _ _ _ _ _ HA k Hk) as [P1 P2].
  eexists. split; [|exact P2]. apply nth_In. rewrite (at_len _ _ _ _ _ _ _ HA). lia.
Qed.

Record TI (m : matching) (i0 : nat) (st : tree) : Prop := {
  ti_m : MI (tlx st) (tly st) m;
  ti_l : LI (tlx st) (tly st) m;
  ti_a : AT (tlx st) (tly st) m i0 (tS st) (tT st) (tparentT st);
  ti_n : NI (tlx st) (tly st) (tS st) (tN st) (tparentN st) }.

Lemma root_bound lx ly m i0 s t pt : AT lx ly m i0 s t pt -> (i0 < n)%nat.
Proof.
  intros HA. rewrite <- (at_root _ _ _ _ _ _ _ HA).
  apply (Forall_nth_lt _ _ 0 (at_sbound _ _ _ _ _ _ _ HA)). rewrite (at_len _ _ _ _ _ _ _ HA). lia.
Qed.

Lemma refresh_ok m i0 st :
  TI m i0 st ->
  exists st1, refresh n edge st = Ok st1 /\ TI m i0 st1 /\ tS st1 = tS st /\ tT st1 = tT st /\
    tparentT st1 = tparentT st /\ (exists j, In j (tN st1) /\ ~ In j (tT st1)).
Proof.
  intros [HM HL HA HN].
  pose proof (free_column _ _ _ _ HM (root_bound _ _ _ _ _ _ _ HA) (at_free _ _ _ _ _ _ _ HA)) as HU.
  pose proof (tree_subset _ _ _ _ _ _ _ _ _ HA HN) as Hinc.
  unfold refresh. destruct (set_eq (tN st) (tT st)) eqn:E.
  - destruct (improve_ok _ _ _ _ _ _ _ HM HL HA HU) as (lx' & ly' & E1 & HM' & HL' & HA' & (i & j & Hi & Hj & Hjt & Ht)).
    rewrite E1. cbn [bind fst snd].
    destruct (find_neighbours_ok lx' ly' (tS st) (label_bounds _ _ _ HM' HL' HU) (at_sbound _ _ _ _ _ _ _ HA))
      as (N & pN & E2 & HN').
    rewrite E2. cbn [bind fst snd]. eexists. split; [reflexivity|].
    split; [constructor; assumption|]. repeat (split; [reflexivity|]). cbn [tN tT].
    exists j. split; [|exact Hjt]. apply (ni_in _ _ _ _ _ HN' j Hj). eauto.
  - exists st. split; [reflexivity|]. split; [constructor; assumption|]. repeat (split; [reflexivity|]).
    destruct (forallb (fun j => mem j (tT st)) (tN st)) eqn:Ef.
    + exfalso. assert (Hinc2 : incl (tN st) (tT st)).
      { intros j Hj. rewrite forallb_forall in Ef. now apply mem_In, Ef. }
      pose proof (NoDup_incl_length (ni_nodup _ _ _ _ _ HN) Hinc2).
      pose proof (NoDup_incl_length (at_tnodup _ _ _ _ _ _ _ HA) Hinc).
      unfold set_eq in E. rewrite Ef, andb_true_r in E. apply Nat.eqb_neq in E. lia.
    + clear - Ef. induction (tN st) as [|j N IH]; [discriminate|]. cbn [forallb] in Ef.
      destruct (mem j (tT st)) eqn:Em.
      * destruct (IH Ef) as (k & Hk & Hn). exists k. simpl. auto.
      * exists j. split; [now left|]. now apply mem_false.
Qed.

Lemma pick_y_ok N t : (exists j, In j N /\ ~ In j t) ->
  exists jj, pick_y N t = Ok jj /\ (jj < length N)%nat /\ ~ In (nth jj N 0%nat) t.
Proof.
  induction N as [|j N IH]; intros (k & Hk & Hn); [destruct Hk|]. cbn [pick_y].
  destruct (mem j t) eqn:Em.
  - apply mem_In in Em. destruct IH as (jj & E & Hl & Hnt).
    { exists k. split; [|exact Hn]. destruct Hk as [<-|Hk]; [contradiction|exact Hk]. }
    rewrite E. exists (S jj). simpl. repeat split; [lia|exact Hnt].
  - apply mem_false in Em. exists 0%nat. simpl. repeat split; [lia|exact Em].
Qed.

(** ** Augmentation *)

(** Mutually inverse except that column [j] (if any) is dangling. *)
Record dangling (lx ly : list Z) (m : matching) (j : option nat) : Prop := {
  dg_p : length (pm m) = n;
  dg_ip : length (ipm m) = n;
  dg_fwd : forall i j', get_j m i = Some j' ->
    (i < n)%nat /\ (j' < n)%nat /\ Some j' <> j /\ get_i m j' = Some i;
  dg_bwd : forall i j', Some j' <> j -> get_i m j' = Some i ->
    (i < n)%nat /\ (j' < n)%nat /\ get_j m i = Some j';
  dg_tight : forall i j', get_j m i = Some j' -> tight lx ly i j' }.

Lemma dangling_step lx ly m i j :
  dangling lx ly m (Some j) -> (i < n)%nat -> (j < n)%nat -> tight lx ly i j ->
  dangling lx ly (add_edge m i j) (get_j m i).
Proof.
  intros [D1 D2 D3 D4 D5] Hi Hj Ht.
  assert (Gj : forall k, get_j (add_edge m i j) k = if Nat.eqb k i then Some j else get_j m k).
  { intros k. unfold get_j, add_edge. cbn [pm].
    destruct (Nat.eqb_spec k i) as [->|Hne]; [apply nth_upd_eq; lia|apply nth_upd_neq; congruence]. }
  assert (Gi : forall k, get_i (add_edge m i j) k = if Nat.eqb k j then Some i else get_i m k).
  { intros k. unfold get_i, add_edge. cbn [ipm].
    destruct (Nat.eqb_spec k j) as [->|Hne]; [apply nth_upd_eq; lia|apply nth_upd_neq; congruence]. }
  constructor.
  - simpl. now rewrite upd_length.
  - simpl. now rewrite upd_length.
  - intros k j' E. rewrite Gj in E. rewrite Gi. destruct (Nat.eqb_spec k i) as [->|Hne].
    + injection E as <-. rewrite Nat.eqb_refl. repeat split; try assumption.
      intros E2. symmetry in E2. apply D3 in E2 as (_ & _ & E2 & _). congruence.
    + destruct (D3 _ _ E) as (H1 & H2 & H3 & H4).
      destruct (Nat.eqb_spec j' j) as [->|Hne2]; [congruence|]. repeat split; try assumption.
      intros E2. symmetry in E2. apply D3 in E2 as (_ & _ & _ & E2). congruence.
  - intros k j' Hne E. rewrite Gi in E. rewrite Gj. destruct (Nat.eqb_spec j' j) as [->|Hne2].
    + injection E as <-. rewrite Nat.eqb_refl. auto.
    + assert (Hd : Some j' <> Some j) by congruence.
      destruct (D4 _ _ Hd E) as (H1 & H2 & H3).
      destruct (Nat.eqb_spec k i) as [->|Hne3]; [congruence|]. auto.
  - intros k j' E. rewrite Gj in E. destruct (Nat.eqb_spec k i) as [->|Hne]; [congruence|]. now apply D5.
Qed.

Lemma augment_loop_ok lx ly s t pt : forall k j m pos,
  NoDup s -> Forall (fun i => i < n)%nat s -> NoDup t -> Forall (fun j => j < n)%nat t ->
  length s = length t -> length pt = length t ->
  (forall p, (p < length t)%nat ->
     (nth p pt 0 <= p)%nat /\ tight lx ly (nth (nth p pt 0%nat) s 0%nat) (nth p t 0%nat)) ->
  (* positions not yet passed are still matched as in the tree *)
  (forall p, (S p <= pos)%nat -> get_j m (nth (S p) s 0%nat) = Some (nth p t 0%nat)) ->
  get_j m (nth 0 s 0%nat) = None ->
  (pos < k <= length t)%nat -> nth pos t 0%nat = j ->
  dangling lx ly m (Some j) ->
  exists m', augment_loop s t pt k (Some j) m = Ok m' /\ dangling lx ly m' None /\
    get_j m' (nth 0 s 0%nat) <> None /\
    (forall i, get_j m i <> None -> get_j m' i <> None) /\
    (forall j', get_i m j' <> None -> get_i m' j' <> None).
Proof.
  induction k as [|k IH]; intros j m pos Hns Hbs Hnt Hbt Hl1 Hl2 Hpar Hmate Hroot Hpos Ej HD; [lia|].
  cbn [augment_loop].
  destruct (Nat.eqb_spec (nth k t 0%nat) j) as [Ek|Ek].
  - assert (pos = k).
    { apply (proj1 (NoDup_nth t 0%nat) Hnt); [lia|lia|congruence]. }
    subst pos. destruct (Hpar k ltac:(lia)) as [Hp Ht]. rewrite Ek in Ht.
    set (ii := nth k pt 0%nat) in *.
    assert (Hi : (nth ii s 0 < n)%nat) by (apply (Forall_nth_lt _ _ ii Hbs); lia).
    assert (Hj : (j < n)%nat) by (rewrite <- Ej; apply (Forall_nth_lt _ _ k Hbt); lia).
    pose proof (dangling_step _ _ _ _ _ HD Hi Hj Ht) as HD'.
    assert (Hlp : length (pm m) = n) by apply HD. assert (Hlq : length (ipm m) = n) by apply HD.
    assert (Gj : forall x, get_j (add_edge m (nth ii s 0%nat) j) x
                 = if Nat.eqb x (nth ii s 0%nat) then Some j else get_j m x).
    { intros x. unfold get_j, add_edge. cbn [pm].
      destruct (Nat.eqb_spec x (nth ii s 0%nat)) as [->|Hne]; [apply nth_upd_eq; lia|apply nth_upd_neq; congruence]. }
    assert (Gi : forall x, get_i (add_edge m (nth ii s 0%nat) j) x
                 = if Nat.eqb x j then Some (nth ii s 0%nat) else get_i m x).
    { intros x. unfold get_i, add_edge. cbn [ipm].
      destruct (Nat.eqb_spec x j) as [->|Hne]; [apply nth_upd_eq; lia|apply nth_upd_neq; congruence]. }
    destruct (Nat.eqb_spec ii 0) as [E0|E0].
    + rewrite E0 in *. rewrite Hroot in HD' |- *. eexists. split; [reflexivity|]. split; [exact HD'|].
      split; [rewrite Gj, Nat.eqb_refl; discriminate|]. split.
      * intros x Hx. rewrite Gj. destruct (Nat.eqb x (nth 0 s 0%nat)); [discriminate|exact Hx].
      * intros x Hx. rewrite Gi. destruct (Nat.eqb x j); [discriminate|exact Hx].
    + destruct ii as [|q]; [lia|]. rewrite (Hmate q ltac:(lia)) in HD' |- *.
      destruct (IH (nth q t 0%nat) (add_edge m (nth (S q) s 0%nat) j) q) as (m' & E & HDn & Hr & Hmono & Hmono2);
        try assumption; try lia; try reflexivity.
      * intros p Hp'. rewrite Gj. destruct (Nat.eqb_spec (nth (S p) s 0%nat) (nth (S q) s 0%nat)) as [Es|Es].
        -- apply (proj1 (NoDup_nth s 0%nat) Hns) in Es; lia.
        -- apply Hmate. lia.
      * rewrite Gj. destruct (Nat.eqb_spec (nth 0 s 0%nat) (nth (S q) s 0%nat)) as [Es|Es].
        -- apply (proj1 (NoDup_nth s 0%nat) Hns) in Es; lia.
        -- exact Hroot.
      * exists m'. split; [exact E|]. split; [exact HDn|]. split; [exact Hr|]. split.
        -- intros x Hx. apply Hmono. rewrite Gj.
           destruct (Nat.eqb x (nth (S q) s 0%nat)); [discriminate|exact Hx].
        -- intros x Hx. apply Hmono2. rewrite Gi. destruct (Nat.eqb x j); [discriminate|exact Hx].
  - assert (pos <> k) by (intros ->; congruence).
    destruct (IH j m pos) as (m' & R); try assumption; [lia|]. exists m'. exact R.
Qed.

Lemma dangling_of_MI lx ly m j :
  MI lx ly m -> get_i m j = None -> dangling lx ly m (Some j).
Proof.
  intros HM E. constructor; try apply HM.
  - intros i j' Ej. destruct (mi_fwd _ _ _ HM _ _ Ej) as (H1 & H2 & H3).
    repeat split; try assumption. intros [= ->]. congruence.
  - intros i j' _ Ej. exact (mi_bwd _ _ _ HM _ _ Ej).
Qed.

Lemma MI_of_dangling lx ly m : dangling lx ly m None -> MI lx ly m.
Proof.
  intros [D1 D2 D3 D4 D5]. constructor; try assumption.
  - intros i j E. destruct (D3 i j E) as (? & ? & _ & ?). auto.
  - intros i j E. apply (D4 i j); [discriminate|exact E].
Qed.

(** ** The inner loop *)

Lemma grow_ok : forall fuel m i0 st,
  TI m i0 st -> (n < fuel + length (tT st))%nat ->
  exists lx ly m', grow n edge fuel m st = Ok (lx, ly, m') /\
    MI lx ly m' /\ LI lx ly m' /\ get_j m' i0 <> None /\
    (forall i, get_j m i <> None -> get_j m' i <> None).
Proof.
  induction fuel as [|fuel IH]; intros m i0 st HT Hf.
  - exfalso. destruct HT as [HM HL HA HN].
    assert (Hinc : incl (tT st) (seq 0 n)).
    { intros j Hj. pose proof (at_tbound _ _ _ _ _ _ _ HA) as Hb. rewrite Forall_forall in Hb.
      apply in_seq. specialize (Hb j Hj). lia. }
    pose proof (NoDup_incl_length (at_tnodup _ _ _ _ _ _ _ HA) Hinc) as Hl.
    rewrite seq_length in Hl. simpl in Hf. lia.
  - cbn [grow].
    destruct (refresh_ok m i0 st HT) as (st1 & E1 & [HM HL HA HN] & ES & ET & EP & Hex).
    rewrite E1. cbn [bind].
    destruct (pick_y_ok _ _ Hex) as (jj & E2 & Hjj & Hnt). rewrite E2. cbn [bind].
    set (j := nth jj (tN st1) 0%nat) in *.
    assert (Hj : (j < n)%nat) by (apply (Forall_nth_lt _ _ jj (ni_bound _ _ _ _ _ HN) Hjj)).
    destruct (ni_par _ _ _ _ _ HN jj Hjj) as [Hp Ht]. fold j in Ht.
    assert (Ei : insert j (tT st1) = tT st1 ++ [j]).
    { unfold insert. now rewrite (proj2 (mem_false _ _) Hnt). }
    rewrite Ei.
    pose proof (at_len _ _ _ _ _ _ _ HA) as Lst. pose proof (at_plen _ _ _ _ _ _ _ HA) as Lpt.
    (* facts shared by both branches *)
    assert (Htn : NoDup (tT st1 ++ [j])) by (apply NoDup_snoc; [apply HA|exact Hnt]).
    assert (Htb : Forall (fun j => j < n)%nat (tT st1 ++ [j]))
      by (apply Forall_app; split; [apply HA|constructor; [exact Hj|constructor]]).
    assert (Hpar : forall p, (p < length (tT st1 ++ [j]))%nat ->
      (nth p (tparentT st1 ++ [nth jj (tparentN st1) 0%nat]) 0 <= p)%nat /\
      tight (tlx st1) (tly st1)
        (nth (nth p (tparentT st1 ++ [nth jj (tparentN st1) 0%nat]) 0%nat) (tS st1) 0%nat)
        (nth p (tT st1 ++ [j]) 0%nat)).
    { intros p Hpl. rewrite app_length in Hpl. cbn [length] in Hpl.
      destruct (Nat.lt_ge_cases p (length (tT st1))) as [Hlt|Hge].
      - rewrite !app_nth1 by lia. apply (at_par _ _ _ _ _ _ _ HA p Hlt).
      - assert (Ep : p = length (tT st1)) by lia.
        assert (En : nth p (tparentT st1 ++ [nth jj (tparentN st1) 0%nat]) 0%nat = nth jj (tparentN st1) 0%nat)
          by (rewrite Ep, <- Lpt; apply nth_snoc).
        rewrite En, Ep, nth_snoc. split; [lia|exact Ht]. }
    destruct (get_i m j) as [z|] eqn:Ez.
    + destruct (mi_bwd _ _ _ HM _ _ Ez) as (Hz & _ & Ezj).
      assert (Hzs : ~ In z (tS st1)).
      { intros Hin. apply Hnt. now apply (mate_in_tree _ _ _ _ _ _ _ _ _ HM HA Ezj). }
      rewrite app_length. cbn [length]. rewrite Nat.add_sub.
      pose proof (label_bounds _ _ _ HM HL
        (free_column _ _ _ _ HM (root_bound _ _ _ _ _ _ _ HA) (at_free _ _ _ _ _ _ _ HA))) as HB.
      destruct (add_neighbours_ok _ _ _ z _ _ HB Hz HN) as (N' & pN' & E3 & HN' & _).
      rewrite E3. cbn [bind fst snd].
      apply IH.
      * constructor; cbn [tlx tly tS tT tparentT tN tparentN]; try assumption.
        constructor.
        -- rewrite app_nth1 by lia. apply HA.
        -- apply HA.
        -- apply NoDup_snoc; [apply HA|exact Hzs].
        -- apply Forall_app. split; [apply HA|]. constructor; [exact Hz|constructor].
        -- exact Htn.
        -- exact Htb.
        -- rewrite !app_length. simpl. lia.
        -- rewrite !app_length. simpl. lia.
        -- intros k Hk. rewrite app_length in Hk. cbn [length] in Hk.
           destruct (Nat.lt_ge_cases k (length (tT st1))) as [Hlt|Hge].
           ++ rewrite !app_nth1 by lia. apply (at_mate _ _ _ _ _ _ _ HA k Hlt).
           ++ assert (Ek : k = length (tT st1)) by lia. rewrite Ek, nth_snoc, <- Lst, nth_snoc. exact Ez.
        -- intros p Hpl. destruct (Hpar p Hpl) as [P1 P2]. split; [exact P1|].
           rewrite app_nth1; [exact P2|]. rewrite app_length in Hpl. simpl in Hpl. lia.
      * cbn [tT]. rewrite app_length. simpl. rewrite ET. lia.
    + unfold augment. rewrite app_length. cbn [length].
      replace (length (tS st1) =? length (tT st1) + 1)%nat with true by (symmetry; apply Nat.eqb_eq; lia).
      cbn [negb]. rewrite last_last, Ez.
      destruct (augment_loop_ok (tlx st1) (tly st1) (tS st1) (tT st1 ++ [j])
        (tparentT st1 ++ [nth jj (tparentN st1) 0%nat]) (length (tT st1) + 1) j m (length (tT st1)))
        as (m' & E4 & HD & Hr & Hmono & Hmono2); try assumption.
      * apply HA.
      * apply HA.
      * rewrite app_length. simpl. lia.
      * rewrite !app_length. simpl. lia.
      * intros p Hp'. rewrite app_nth1 by lia.
        pose proof (at_mate _ _ _ _ _ _ _ HA p ltac:(lia)) as Hm.
        now apply (mi_bwd _ _ _ HM) in Hm.
      * rewrite (at_root _ _ _ _ _ _ _ HA). apply HA.
      * rewrite app_length. simpl. lia.
      * apply nth_snoc.
      * now apply dangling_of_MI.
      * rewrite E4. cbn [bind]. exists (tlx st1), (tly st1), m'. split; [reflexivity|].
        split; [now apply MI_of_dangling|]. split.
        -- destruct HL as [L1 L2 L3 L4 L5 L6]. constructor; try assumption.
           intros j' Hj' E'. apply L5; [exact Hj'|].
           destruct (get_i m j') eqn:Eo; [|reflexivity].
           exfalso. apply (Hmono2 j'); congruence.
        -- split; [|exact Hmono]. now rewrite (at_root _ _ _ _ _ _ _ HA) in Hr.
Qed.

(** ** The outer loop *)

Lemma complete_ok : forall fuel lx ly m,
  MI lx ly m -> LI lx ly m -> (count_none (pm m) < fuel)%nat ->
  exists lx' ly' m', complete n edge fuel lx ly m = Ok (pm m', lx', ly') /\
    MI lx' ly' m' /\ LI lx' ly' m' /\ (forall i, (i < n)%nat -> get_j m' i <> None).
Proof.
  induction fuel as [|fuel IH]; intros lx ly m HM HL Hc; [lia|]. cbn [complete].
  pose proof (mi_p _ _ _ HM) as Lp. pose proof (find_none_le (pm m)) as Hfn.
  destruct (Nat.eqb_spec (find_none (pm m)) n) as [E|E].
  - exists lx, ly, m. split; [reflexivity|]. split; [exact HM|]. split; [exact HL|].
    intros i Hi. apply find_none_all; lia.
  - set (i := find_none (pm m)) in *.
    assert (Hi : (i < n)%nat) by lia.
    assert (Ei : get_j m i = None) by (apply find_none_spec; lia).
    pose proof (label_bounds _ _ _ HM HL (free_column _ _ _ _ HM Hi Ei)) as HB.
    destruct (find_neighbours_ok lx ly [i] HB ltac:(constructor; [exact Hi|constructor])) as (N & pN & E2 & HN).
    rewrite E2. cbn [bind fst snd].
    destruct (grow_ok (S n) m i {| tlx := lx; tly := ly; tS := [i]; tT := []; tparentT := [];
                              tN := N; tparentN := pN |}) as (lx' & ly' & m' & E3 & HM' & HL' & Hr & Hmono).
    { constructor; cbn [tlx tly tS tT tparentT tN tparentN]; try assumption.
      constructor; try reflexivity; try assumption; try (intros k Hk; simpl in Hk; lia).
      - constructor; [intros []|constructor].
      - constructor; [exact Hi|constructor].
      - constructor.
      - constructor. }
    { simpl. lia. }
    rewrite E3. cbn [bind].
    apply IH; try assumption.
    pose proof (mi_p _ _ _ HM') as Lp'.
    pose proof (count_none_lt (pm m) (pm m') i ltac:(lia) Hmono ltac:(lia) Ei Hr). lia.
Qed.

(** ** Initial state *)

Lemma init_lx_nth i : (i < n)%nat ->
  lab (init_lx n edge) i = fold_left (fun a j => Z.max a (w i j)) (seq 0 n) 0.
Proof.
  intros Hi. unfold lab, init_lx.
  set (g := fun i => fold_left (fun a j => Z.max a (w i j)) (seq 0 n) 0).
  rewrite (nth_indep _ 0 (g 0%nat)) by (now rewrite map_length, seq_length).
  rewrite map_nth, seq_nth by exact Hi. reflexivity.
Qed.

Lemma init_MI lx ly : MI lx ly (empty_matching n).
Proof.
  constructor; simpl; try apply repeat_length; unfold get_j, get_i; simpl;
    intros i j E; rewrite nth_repeat_none in E; discriminate.
Qed.

Lemma init_LI : LI (init_lx n edge) (repeat 0 n) (empty_matching n).
Proof.
  constructor.
  - unfold init_lx. now rewrite map_length, seq_length.
  - apply repeat_length.
  - intros i j Hi Hj. rewrite init_lx_nth, lab_repeat0 by exact Hi.
    destruct (fold_max_spec (w i) (seq 0 n) 0) as (_ & H & _).
    specialize (H j ltac:(apply in_seq; lia)). lia.
  - intros j Hj. rewrite lab_repeat0. lia.
  - intros j Hj _. apply lab_repeat0.
  - intros i Hi. rewrite init_lx_nth by exact Hi.
    destruct (fold_max_spec (w i) (seq 0 n) 0) as (_ & _ & [H|(j & Hj & H)]); rewrite H.
    + pose proof (Hw i i Hi Hi). lia.
    + apply in_seq in Hj. apply Hw; lia.
Qed.

(** ** Duality *)

Lemma sum_over_assignment (ly : list Z) sigma :
  assignment n sigma ->
  Zsum (map (fun i => lab ly (nth i sigma 0%nat)) (seq 0 n)) = Zsum (map (lab ly) (seq 0 n)).
Proof.
  intros HP. apply Zsum_perm. rewrite <- (map_map (fun i => nth i sigma 0%nat) (lab ly)).
  apply Permutation_map.
  assert (Hl : length sigma = n) by (rewrite (Permutation_length HP); apply seq_length).
  replace (map (fun i => nth i sigma 0%nat) (seq 0 n)) with sigma; [exact HP|].
  apply (nth_ext _ _ 0%nat 0%nat).
  - now rewrite map_length, seq_length.
  - intros k Hk. rewrite Hl in Hk.
    rewrite (nth_indep (map _ _) 0%nat (nth 0%nat sigma 0%nat)) by (rewrite map_length, seq_length; exact Hk).
    rewrite (map_nth (fun i => nth i sigma 0%nat)), seq_nth by exact Hk. reflexivity.
Qed.

Lemma weak_duality lx ly m sigma :
  LI lx ly m -> assignment n sigma ->
  total_weight n edge sigma <= Zsum (map (lab lx) (seq 0 n)) + Zsum (map (lab ly) (seq 0 n)).
Proof.
  intros HL HP. rewrite <- (sum_over_assignment ly sigma HP), <- Zsum_map_add.
  unfold total_weight. apply Zsum_map_le. intros i Hi. apply in_seq in Hi.
  apply (li_feas _ _ _ HL i (nth i sigma 0%nat)); [lia|]. apply (assignment_bound n); [exact HP|lia].
Qed.

Lemma hungarian_main :
  (0 < n)%nat ->
  exists sigma lx ly,
    hungarian n edge = Ok (map Some sigma, lx, ly) /\ max_assignment n edge sigma /\
    length lx = n /\ length ly = n /\
    (forall i j, (i < n)%nat -> (j < n)%nat -> w i j <= lab lx i + lab ly j) /\
    (forall i, (i < n)%nat -> lab lx i + lab ly (nth i sigma 0%nat) = w i (nth i sigma 0%nat)).
Proof.
  intros Hn. unfold hungarian. replace (n =? 0)%nat with false by (symmetry; apply Nat.eqb_neq; lia).
  destruct (complete_ok (S n) (init_lx n edge) (repeat 0 n) (empty_matching n)
    (init_MI _ _) init_LI) as (lx & ly & m & E & HM & HL & Hall).
  { unfold count_none, empty_matching. cbn [pm].
    assert (Hfl : forall k, length (filter is_none (repeat (@None nat) k)) = k)
      by (induction k as [|k IHk]; simpl; [reflexivity|now rewrite IHk]).
    rewrite Hfl. lia. }
  set (sigma := map (fun o => match o with Some j => j | None => 0%nat end) (pm m)).
  pose proof (mi_p _ _ _ HM) as Lp.
  assert (Hls : length sigma = n) by (unfold sigma; now rewrite map_length).
  assert (Hs : forall i, (i < n)%nat -> get_j m i = Some (nth i sigma 0%nat)).
  { intros i Hi. unfold sigma, get_j. specialize (Hall i Hi). unfold get_j in Hall.
    change 0%nat with ((fun o : option nat => match o with Some j => j | None => 0%nat end) None).
    rewrite map_nth. destruct (nth i (pm m) None); congruence. }
  assert (Eq : pm m = map Some sigma).
  { apply (nth_ext _ _ None None); [now rewrite map_length, Hls|]. intros k Hk.
    rewrite (nth_indep (map _ _) None (Some 0%nat)) by (rewrite map_length; lia).
    rewrite (map_nth Some). apply (Hs k). lia. }
  assert (HA : assignment n sigma).
  { apply NoDup_Permutation_bis.
    - apply (NoDup_nth sigma 0%nat). intros a b Ha Hb Eab.
      pose proof (Hs a ltac:(lia)) as Ga. pose proof (Hs b ltac:(lia)) as Gb. rewrite Eab in Ga.
      apply (mi_fwd _ _ _ HM) in Ga as (_ & _ & Ga). apply (mi_fwd _ _ _ HM) in Gb as (_ & _ & Gb). congruence.
    - rewrite seq_length. lia.
    - intros x Hx. apply (In_nth _ _ 0%nat) in Hx as (k & Hk & <-). apply in_seq.
      destruct (mi_fwd _ _ _ HM _ _ (Hs k ltac:(lia))). lia. }
  assert (Ht : forall i, (i < n)%nat -> lab lx i + lab ly (nth i sigma 0%nat) = w i (nth i sigma 0%nat))
    by (intros i Hi; apply (mi_tight _ _ _ HM _ _ (Hs i Hi))).
  exists sigma, lx, ly. rewrite E, Eq. split; [reflexivity|]. split.
  - split; [exact HA|]. intros tau Htau.
    apply (Z.le_trans _ (Zsum (map (lab lx) (seq 0 n)) + Zsum (map (lab ly) (seq 0 n)))).
    + now apply (weak_duality _ _ m).
    + rewrite <- (sum_over_assignment ly sigma HA), <- Zsum_map_add. unfold total_weight.
      apply Zsum_map_le. intros i Hi. apply in_seq in Hi. rewrite Ht by lia. reflexivity.
  - split; [apply HL|]. split; [apply HL|]. split; [apply HL|exact Ht].
Qed.
End Graph.

Lemma hungarian_main_list n edge :
  (0 < n)%nat -> length edge = (n * n)%nat -> Forall (fun z => 0 <= z <= 1073741823) edge ->
  exists sigma lx ly,
    hungarian n edge = Ok (map Some sigma, lx, ly) /\ max_assignment n edge sigma /\
    length lx = n /\ length ly = n /\
    (forall i j, (i < n)%nat -> (j < n)%nat -> nth (i * n + j)%nat edge 0 <= nth i lx 0 + nth j ly 0) /\
    (forall i, (i < n)%nat ->
       nth i lx 0 + nth (nth i sigma 0%nat) ly 0 = nth (i * n + nth i sigma 0%nat)%nat edge 0).
Proof.
  intros Hn Hl Hf. apply (hungarian_main n edge 1073741823); [lia| |exact Hn].
  intros i j Hi Hj. rewrite Forall_forall in Hf. apply Hf. unfold weight. apply nth_In. nia.
Qed.

Lemma overflow_witness : exists edge,
  length edge = (3 * 3)%nat /\ Forall (fun z => 0 <= z <= int_max) edge /\
  hungarian 3 edge = Err RuntimeError.
Proof.
  exists [int_max;0;0; int_max;0;0; 0;int_max;0]. split; [reflexivity|]. split; [|vm_compute; reflexivity].
  unfold int_max. repeat constructor; lia.
Qed.

Lemma in_int_range z : in_int z = true <-> - 2 ^ 31 <= z < 2 ^ 31.
Proof.
  unfold in_int, int_max. rewrite Bool.andb_true_iff, !Z.leb_le.
  change (2 ^ 31) with 2147483648. lia.
Qed.
