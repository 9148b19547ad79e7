(** Proofs about joins of two tables. *)
From Coq Require Import String Permutation Sorted.
From Verif Require Import Base ResultLib ListLib JoinModel JoinSpec JoinLists.
Open Scope list_scope.
Open Scope nat_scope.

Lemma mem_iff c cs : mem c cs = true <-> In c cs.
Proof.
  unfold mem. rewrite existsb_exists. split.
  - intros [x [Hx He]]. apply String.eqb_eq in He. subst. exact Hx.
  - intros H. exists c. split; [exact H | apply String.eqb_refl].
Qed.
Lemma mem_false c cs : mem c cs = false <-> ~ In c cs.
Proof. rewrite <- mem_iff. destruct (mem c cs); split; congruence. Qed.

Lemma holds_in cols r c v : holds cols r c v -> In c cols.
Proof. intros [i [Hi _]]. exact (nth_error_In _ _ Hi). Qed.
Lemma holds_inj cols r c v v' : NoDup cols -> holds cols r c v -> holds cols r c v' -> v = v'.
Proof.
  intros Hn [i [Hi Hv]] [j [Hj Hv']].
  assert (i = j).
  { rewrite NoDup_nth_error in Hn. apply Hn; [|congruence]. apply nth_error_Some. congruence. }
  subst j. congruence.
Qed.
Lemma holds_field cols : forall r c, List.length r = List.length cols -> In c cols ->
  holds cols r c (field cols r c).
Proof.
  induction cols as [|k cols IH]; intros r c Hl Hc; [destruct Hc|].
  destruct r as [|x r]; [discriminate|]. cbn [field].
  destruct (String.eqb c k) eqn:E.
  - apply String.eqb_eq in E. subst k. exists 0. split; reflexivity.
  - apply String.eqb_neq in E. destruct Hc as [Hc|Hc]; [congruence|].
    destruct (IH r c) as [i [Hi Hv]]; [cbn in Hl; lia | exact Hc|].
    exists (S i). split; assumption.
Qed.
Lemma field_holds cols r c v : NoDup cols -> List.length r = List.length cols -> holds cols r c v ->
  v = field cols r c.
Proof.
  intros Hn Hl H. apply (holds_inj cols r c); [exact Hn | exact H|].
  apply holds_field; [exact Hl | exact (holds_in _ _ _ _ H)].
Qed.
Lemma key_eqb_eq a b : scalar a -> (key_eqb a b = true <-> a = b).
Proof.
  intros Ha. destruct a as [|x|l]; [| |exfalso; exact (Ha l eq_refl)]; destruct b as [|y|m]; cbn;
    try (split; congruence). rewrite Z.eqb_eq. split; congruence.
Qed.

(** Rows of columns put together. *)
Lemma holds_app_l a b r s c v : holds a r c v -> holds (a ++ b) (r ++ s) c v.
Proof.
  intros [i [Hi Hv]]. exists i. split; rewrite nth_error_app1; try assumption;
    apply nth_error_Some; congruence.
Qed.
Lemma holds_app_r a b r s c v : List.length r = List.length a -> holds b s c v -> holds (a ++ b) (r ++ s) c v.
Proof.
  intros Hl [i [Hi Hv]]. exists (List.length a + i). split.
  - rewrite nth_error_app2 by lia. replace (List.length a + i - List.length a) with i by lia. exact Hi.
  - rewrite nth_error_app2 by lia. replace (List.length a + i - List.length r) with i by lia. exact Hv.
Qed.
Lemma holds_rename f cols r c v : holds cols r c v -> holds (map f cols) r (f c) v.
Proof. intros [i [Hi Hv]]. exists i. split; [|exact Hv]. rewrite nth_error_map, Hi. reflexivity. Qed.
Lemma holds_map (g : string -> cell) cols c : In c cols -> holds cols (map g cols) c (g c).
Proof.
  intros H. apply In_nth_error in H. destruct H as [i Hi]. exists i. split; [exact Hi|].
  rewrite nth_error_map, Hi. reflexivity.
Qed.

Lemma not_nil {S T} (l : list S) (x y : T) : l <> [] -> match l with [] => x | _ => y end = y.
Proof. destruct l; congruence. Qed.

Section Pair.
  Context (left right : table) (on : list string) (P : string -> Prop).
  Hypothesis HP : forall c, P c <-> In c on.
  Hypothesis WL : well_formed (fun c => In c on) left.
  Hypothesis WR : well_formed (fun c => In c on) right.
  Hypothesis IL : incl on (columns left).
  Hypothesis IR : incl on (columns right).

  Let lc := columns left.
  Let rc := columns right.
  Let n := List.length (rows left).
  Let m := List.length (rows right).
  Let A i := nth i (rows left) [].
  Let B j := nth j (rows right) [].
  Let matches l r := forallb (fun c => key_eqb (field lc l c) (field rc r c)) on.
  Let M i j := matches (A i) (B j).
  Let rest := filter (fun c => negb (mem c on)) rc.

  Lemma matches_agree l r : In l (rows left) -> In r (rows right) ->
    (matches l r = true <-> agree P left right l r).
  Proof.
    intros Hl Hr. destruct WL as (NL & LL & SL), WR as (NR & LR & SR).
    unfold matches. rewrite forallb_forall. split.
    - intros H c v Hc. apply HP in Hc. specialize (H c Hc).
      assert (Hs : scalar (field lc l c)) by (apply (SL l c); [exact Hl | exact Hc | apply holds_field; [exact (LL _ Hl) | exact (IL _ Hc)]]).
      apply (key_eqb_eq _ _ Hs) in H. split; intros Hv.
      + rewrite (field_holds _ _ _ _ NL (LL _ Hl) Hv). fold lc. rewrite H.
        apply holds_field; [exact (LR _ Hr) | exact (IR _ Hc)].
      + rewrite (field_holds _ _ _ _ NR (LR _ Hr) Hv). fold rc. rewrite <- H.
        apply holds_field; [exact (LL _ Hl) | exact (IL _ Hc)].
    - intros H c Hc.
      assert (Hh : holds lc l c (field lc l c)) by (apply holds_field; [exact (LL _ Hl) | exact (IL _ Hc)]).
      apply key_eqb_eq; [exact (SL l c _ Hl Hc Hh)|].
      apply (field_holds _ _ _ _ NR (LR _ Hr)). apply H; [apply HP; exact Hc | exact Hh].
  Qed.
  Lemma at_left i l : row_at left i l <-> i < n /\ l = A i.
  Proof.
    unfold row_at, n, A. split.
    - intros H. split; [apply nth_error_Some; congruence|]. symmetry. apply nth_error_nth. exact H.
    - intros [H ->]. apply nth_error_nth'. exact H.
  Qed.
  Lemma at_right j r : row_at right j r <-> j < m /\ r = B j.
  Proof.
    unfold row_at, m, B. split.
    - intros H. split; [apply nth_error_Some; congruence|]. symmetry. apply nth_error_nth. exact H.
    - intros [H ->]. apply nth_error_nth'. exact H.
  Qed.
  Lemma in_left i : i < n -> In (A i) (rows left).
  Proof. intros H. apply nth_In. exact H. Qed.
  Lemma in_right j : j < m -> In (B j) (rows right).
  Proof. intros H. apply nth_In. exact H. Qed.

  Definition build (s : option nat * option nat) : row :=
    match s with
    | (Some i, Some j) => A i ++ map (field rc (B j)) rest
    | (Some i, None) => A i ++ map (fun _ => Null) rest
    | (None, Some j) => map (fun c => if mem c on then field rc (B j) c else Null) lc ++ map (field rc (B j)) rest
    | (None, None) => []
    end.
  Definition inner_src : list (option nat * option nat) :=
    flat_map (fun i => map (fun j => (Some i, Some j)) (filter (M i) (seq 0 m))) (seq 0 n).
  Definition left_src : list (option nat * option nat) :=
    flat_map (fun i => match filter (M i) (seq 0 m) with
      | [] => [(Some i, None)]
      | js => map (fun j => (Some i, Some j)) js
      end) (seq 0 n).
  Definition right_src : list (option nat * option nat) :=
    flat_map (fun j => match filter (fun i => M i j) (seq 0 n) with
      | [] => [(None, Some j)]
      | is_ => map (fun i => (Some i, Some j)) is_
      end) (seq 0 m).
  Definition extra_src : list (option nat * option nat) :=
    map (fun j => (None, Some j)) (filter (fun j => negb (existsb (fun i => M i j) (seq 0 n))) (seq 0 m)).

  Lemma rows_left : rows left = map A (seq 0 n).
  Proof. exact (list_as_seq [] (rows left)). Qed.
  Lemma rows_right : rows right = map B (seq 0 m).
  Proof. exact (list_as_seq [] (rows right)). Qed.

  Lemma build_inner :
    flat_map (fun l => map (fun r => l ++ map (field rc r) rest) (filter (matches l) (rows right))) (rows left)
    = map build inner_src.
  Proof.
    unfold inner_src. rewrite map_flat_map, rows_left, flat_map_map. apply flat_map_ext_in. intros i _.
    rewrite rows_right, filter_map, !map_map. reflexivity.
  Qed.
  Lemma build_left :
    flat_map (fun l => match filter (matches l) (rows right) with
        | [] => [l ++ map (fun _ => Null) rest]
        | ms => map (fun r => l ++ map (field rc r) rest) ms
        end) (rows left)
    = map build left_src.
  Proof.
    unfold left_src. rewrite map_flat_map, rows_left, flat_map_map. apply flat_map_ext_in. intros i _.
    rewrite rows_right, filter_map. fold (M i).
    change (fun x => matches (A i) (B x)) with (M i).
    destruct (filter (M i) (seq 0 m)) as [|j js]; [reflexivity|].
    change (map B (j :: js)) with (B j :: map B js) at 1. cbn iota.
    change (B j :: map B js) with (map B (j :: js)). rewrite !map_map. reflexivity.
  Qed.
  Lemma build_right :
    flat_map (fun r => match filter (fun l => matches l r) (rows left) with
        | [] => [map (fun c => if mem c on then field rc r c else Null) lc ++ map (field rc r) rest]
        | ms => map (fun l => l ++ map (field rc r) rest) ms
        end) (rows right)
    = map build right_src.
  Proof.
    unfold right_src. rewrite map_flat_map, rows_right, flat_map_map. apply flat_map_ext_in. intros j _.
    rewrite rows_left, filter_map.
    change (fun x => matches (A x) (B j)) with (fun i => M i j).
    destruct (filter (fun i => M i j) (seq 0 n)) as [|i is_]; [reflexivity|].
    change (map A (i :: is_)) with (A i :: map A is_) at 1. cbn iota.
    change (A i :: map A is_) with (map A (i :: is_)). rewrite !map_map. reflexivity.
  Qed.
  Lemma build_extra :
    map (fun r => map (fun c => if mem c on then field rc r c else Null) lc ++ map (field rc r) rest)
      (filter (fun r => negb (existsb (fun l => matches l r) (rows left))) (rows right))
    = map build extra_src.
  Proof.
    unfold extra_src. rewrite rows_right, filter_map, !map_map.
    rewrite (filter_ext _ (fun j => negb (existsb (fun i => M i j) (seq 0 n)))); [reflexivity|].
    intros j. rewrite rows_left, existsb_map. reflexivity.
  Qed.

  Lemma filter_nil {T} (f : T -> bool) l : filter f l = [] <-> forall x, In x l -> f x = false.
  Proof.
    split.
    - intros H x Hx. destruct (f x) eqn:E; [|reflexivity].
      assert (In x (filter f l)) by (apply filter_In; split; assumption). rewrite H in *. contradiction.
    - induction l as [|x l IH]; intros H; cbn; [reflexivity|].
      rewrite (H x (or_introl eq_refl)). apply IH. intros y Hy. apply H. right. exact Hy.
  Qed.

  (** What each list of sources contains. *)
  Definition pairs_ok (s : list (option nat * option nat)) : Prop :=
    forall i j, In (Some i, Some j) s <-> i < n /\ j < m /\ M i j = true.
  Definition lefts_ok (b : bool) (s : list (option nat * option nat)) : Prop :=
    forall i, In (Some i, None) s <-> b = true /\ i < n /\ forall j, j < m -> M i j = false.
  Definition rights_ok (b : bool) (s : list (option nat * option nat)) : Prop :=
    forall j, In (None, Some j) s <-> b = true /\ j < m /\ forall i, i < n -> M i j = false.
  Definition sources_ok ln rn s : Prop :=
    NoDup s /\ pairs_ok s /\ lefts_ok rn s /\ rights_ok ln s /\ ~ In (None, None) s.

  Lemma in_inner s : In s inner_src <->
    exists i j, s = (Some i, Some j) /\ i < n /\ j < m /\ M i j = true.
  Proof.
    unfold inner_src. rewrite in_flat_map. split.
    - intros [i [Hi H]]. apply in_map_iff in H. destruct H as [j [<- H]]. apply filter_In in H.
      destruct H as [Hj HM]. apply in_seq in Hi. apply in_seq in Hj.
      exists i, j. split; [reflexivity|]. split; [lia|]. split; [lia | exact HM].
    - intros (i & j & -> & Hi & Hj & HM). exists i. split; [apply in_seq; lia|].
      apply in_map_iff. exists j. split; [reflexivity|]. apply filter_In. split; [apply in_seq; lia | exact HM].
  Qed.
  Lemma in_left_src s : In s left_src <->
    (exists i j, s = (Some i, Some j) /\ i < n /\ j < m /\ M i j = true) \/
    (exists i, s = (Some i, None) /\ i < n /\ forall j, j < m -> M i j = false).
  Proof.
    unfold left_src. rewrite in_flat_map. split.
    - intros [i [Hi H]]. apply in_seq in Hi.
      destruct (filter (M i) (seq 0 m)) as [|j0 js] eqn:E.
      + right. destruct H as [<- |[]]. exists i. split; [reflexivity|]. split; [lia|].
        intros j Hj. rewrite filter_nil in E. apply E. apply in_seq. lia.
      + left. rewrite <- E in H. apply in_map_iff in H. destruct H as [j [<- H]]. apply filter_In in H.
        destruct H as [Hj HM]. apply in_seq in Hj.
        exists i, j. split; [reflexivity|]. split; [lia|]. split; [lia | exact HM].
    - intros [(i & j & -> & Hi & Hj & HM)|(i & -> & Hi & HM)]; exists i; (split; [apply in_seq; lia|]).
      + assert (Hin : In j (filter (M i) (seq 0 m))) by (apply filter_In; split; [apply in_seq; lia | exact HM]).
        destruct (filter (M i) (seq 0 m)) as [|j0 js]; [destruct Hin|].
        apply in_map_iff. exists j. split; [reflexivity | exact Hin].
      + assert (E : filter (M i) (seq 0 m) = []) by (apply filter_nil; intros j Hj; apply in_seq in Hj; apply HM; lia).
        rewrite E. left. reflexivity.
  Qed.
  Lemma in_right_src s : In s right_src <->
    (exists i j, s = (Some i, Some j) /\ i < n /\ j < m /\ M i j = true) \/
    (exists j, s = (None, Some j) /\ j < m /\ forall i, i < n -> M i j = false).
  Proof.
    unfold right_src. rewrite in_flat_map. split.
    - intros [j [Hj H]]. apply in_seq in Hj.
      destruct (filter (fun i => M i j) (seq 0 n)) as [|i0 is_] eqn:E.
      + right. destruct H as [<- |[]]. exists j. split; [reflexivity|]. split; [lia|].
        intros i Hi. rewrite filter_nil in E. apply (E i). apply in_seq. lia.
      + left. rewrite <- E in H. apply in_map_iff in H. destruct H as [i [<- H]]. apply filter_In in H.
        destruct H as [Hi HM]. apply in_seq in Hi.
        exists i, j. split; [reflexivity|]. split; [lia|]. split; [lia | exact HM].
    - intros [(i & j & -> & Hi & Hj & HM)|(j & -> & Hj & HM)]; exists j; (split; [apply in_seq; lia|]).
      + assert (Hin : In i (filter (fun i => M i j) (seq 0 n))) by (apply filter_In; split; [apply in_seq; lia | exact HM]).
        destruct (filter (fun i => M i j) (seq 0 n)) as [|i0 is_]; [destruct Hin|].
        apply in_map_iff. exists i. split; [reflexivity | exact Hin].
      + assert (E : filter (fun i => M i j) (seq 0 n) = []) by (apply filter_nil; intros i Hi; apply in_seq in Hi; apply HM; lia).
        rewrite E. left. reflexivity.
  Qed.
  Lemma in_extra s : In s extra_src <-> exists j, s = (None, Some j) /\ j < m /\ forall i, i < n -> M i j = false.
  Proof.
    unfold extra_src. rewrite in_map_iff. split.
    - intros [j [<- H]]. apply filter_In in H. destruct H as [Hj H]. apply in_seq in Hj.
      exists j. split; [reflexivity|]. split; [lia|]. intros i Hi. destruct (M i j) eqn:E; [|reflexivity].
      exfalso. assert (Ht : existsb (fun i => M i j) (seq 0 n) = true)
        by (apply existsb_exists; exists i; split; [apply in_seq; lia | exact E]). rewrite Ht in H. discriminate.
    - intros (j & -> & Hj & HM). exists j. split; [reflexivity|]. apply filter_In. split; [apply in_seq; lia|].
      destruct (existsb (fun i => M i j) (seq 0 n)) eqn:E; [|reflexivity].
      apply existsb_exists in E. destruct E as [i [Hi E]]. apply in_seq in Hi. rewrite HM in E by lia. discriminate.
  Qed.

  Lemma inner_ok : sources_ok false false inner_src.
  Proof.
    split; [|split; [|split; [|split]]].
    - unfold inner_src. apply nodup_flat_map; [apply seq_NoDup | |].
      + intros i _. apply nodup_map_inj; [intros x y H; congruence | apply NoDup_filter, seq_NoDup].
      + intros i i' z _ _ H H'. apply in_map_iff in H, H'. destruct H as [? [<- _]], H' as [? [H' _]]. congruence.
    - intros i j. rewrite in_inner. split; [intros (i' & j' & H & H'); inversion H; subst; exact H'|].
      intros H. exists i, j. split; [reflexivity | exact H].
    - intros i. rewrite in_inner. split; [intros (i' & j' & H & H'); discriminate | intros [H _]; discriminate].
    - intros i. rewrite in_inner. split; [intros (i' & j' & H & H'); discriminate | intros [H _]; discriminate].
    - rewrite in_inner. intros (i' & j' & H & H'). discriminate.
  Qed.
  Lemma left_nodup : NoDup left_src.
  Proof.
    unfold left_src. apply nodup_flat_map; [apply seq_NoDup | |].
    - intros i _. destruct (filter (M i) (seq 0 m)) as [|j js] eqn:E; [constructor; [intros [] | constructor]|].
      rewrite <- E. apply nodup_map_inj; [intros x y H; congruence | apply NoDup_filter, seq_NoDup].
    - intros i i' z _ _ H H'.
      assert (Hz : fst z = Some i).
      { destruct (filter (M i) (seq 0 m)); [destruct H as [<- |[]]; reflexivity|].
        apply in_map_iff in H. destruct H as [? [<- _]]. reflexivity. }
      assert (Hz' : fst z = Some i').
      { destruct (filter (M i') (seq 0 m)); [destruct H' as [<- |[]]; reflexivity|].
        apply in_map_iff in H'. destruct H' as [? [<- _]]. reflexivity. }
      congruence.
  Qed.
  Lemma left_ok : sources_ok false true left_src.
  Proof.
    split; [exact left_nodup|]. split; [|split; [|split]].
    - intros i j. rewrite in_left_src. split.
      + intros [(i' & j' & H & H')|(i' & H & H')]; inversion H; subst. exact H'.
      + intros H. left. exists i, j. split; [reflexivity | exact H].
    - intros i. rewrite in_left_src. split.
      + intros [(i' & j' & H & H')|(i' & H & H')]; inversion H; subst. split; [reflexivity | exact H'].
      + intros [_ H]. right. exists i. split; [reflexivity | exact H].
    - intros i. rewrite in_left_src. split; [|intros [H _]; discriminate].
      intros [(i' & j' & H & H')|(i' & H & H')]; discriminate.
    - rewrite in_left_src. intros [(i' & j' & H & H')|(i' & H & H')]; discriminate.
  Qed.
  Lemma right_ok : sources_ok true false right_src.
  Proof.
    split; [|split; [|split; [|split]]].
    - unfold right_src. apply nodup_flat_map; [apply seq_NoDup | |].
      + intros j _. destruct (filter (fun i => M i j) (seq 0 n)) as [|i is_] eqn:E; [constructor; [intros [] | constructor]|].
        rewrite <- E. apply nodup_map_inj; [intros x y H; congruence | apply NoDup_filter, seq_NoDup].
      + intros j j' z _ _ H H'.
        assert (Hz : snd z = Some j).
        { destruct (filter (fun i => M i j) (seq 0 n)); [destruct H as [<- |[]]; reflexivity|].
          apply in_map_iff in H. destruct H as [? [<- _]]. reflexivity. }
        assert (Hz' : snd z = Some j').
        { destruct (filter (fun i => M i j') (seq 0 n)); [destruct H' as [<- |[]]; reflexivity|].
          apply in_map_iff in H'. destruct H' as [? [<- _]]. reflexivity. }
        congruence.
    - intros i j. rewrite in_right_src. split.
      + intros [(i' & j' & H & H')|(i' & H & H')]; inversion H; subst. exact H'.
      + intros H. left. exists i, j. split; [reflexivity | exact H].
    - intros i. rewrite in_right_src. split; [|intros [H _]; discriminate].
      intros [(i' & j' & H & H')|(i' & H & H')]; discriminate.
    - intros j. rewrite in_right_src. split.
      + intros [(i' & j' & H & H')|(i' & H & H')]; inversion H; subst. split; [reflexivity | exact H'].
      + intros [_ H]. right. exists j. split; [reflexivity | exact H].
    - rewrite in_right_src. intros [(i' & j' & H & H')|(i' & H & H')]; discriminate.
  Qed.
  Lemma outer_ok : sources_ok true true (left_src ++ extra_src).
  Proof.
    destruct left_ok as (_ & LP & LL & LR & LN).
    split; [|split; [|split; [|split]]].
    - apply nodup_app; [exact left_nodup | |].
      + apply nodup_map_inj; [intros x y H; congruence | apply NoDup_filter, seq_NoDup].
      + intros z Hz Hz'. apply in_extra in Hz'. destruct Hz' as (j & -> & _). apply LR in Hz. destruct Hz as [Hz _]. discriminate.
    - intros i j. rewrite in_app_iff, in_extra, (LP i j). split; [|tauto].
      intros [H|(j' & H & _)]; [exact H | discriminate].
    - intros i. rewrite in_app_iff, in_extra, (LL i). split; [|tauto].
      intros [H|(j' & H & _)]; [exact H | discriminate].
    - intros j. rewrite in_app_iff, in_extra, (LR j). split.
      + intros [[H _]|(j' & H & H')]; [discriminate|]. inversion H; subst. split; [reflexivity | exact H'].
      + intros [_ H]. right. exists j. split; [reflexivity | exact H].
    - rewrite in_app_iff, in_extra. intros [H|(j' & H & _)]; [exact (LN H) | discriminate].
  Qed.
  Lemma ok_perm ln rn s s' : Permutation s s' -> sources_ok ln rn s -> sources_ok ln rn s'.
  Proof.
    intros Hp (H1 & H2 & H3 & H4 & H5).
    assert (Hin : forall x, In x s' <-> In x s) by (intros x; split; apply Permutation_in; [symmetry|]; exact Hp).
    split; [exact (Permutation_NoDup Hp H1)|].
    split; [intros i j; rewrite Hin; apply H2|]. split; [intros i; rewrite Hin; apply H3|].
    split; [intros j; rewrite Hin; apply H4|]. rewrite Hin. exact H5.
  Qed.

  Definition out_columns : list string :=
    let shared c := mem c lc && mem c rc && negb (mem c on) in
    let rename suffix c := if shared c then String.append c suffix else c in
    map (rename "_x"%string) lc ++ map (rename "_y"%string) rest.

  Lemma renamed suffix c name : out_name P left right suffix c name ->
    name = if mem c lc && mem c rc && negb (mem c on) then String.append c suffix else c.
  Proof.
    intros [H1 H2]. destruct (mem c lc && mem c rc && negb (mem c on)) eqn:E.
    - apply andb_prop in E. destruct E as [E E3]. apply andb_prop in E. destruct E as [E1 E2].
      apply mem_iff in E1, E2. apply negb_true_iff, mem_false in E3. apply H1. rewrite HP. tauto.
    - apply H2. intros (H & H' & H''). rewrite HP in H''. apply mem_iff in H, H'. apply mem_false in H''.
      unfold lc, rc in E. rewrite H, H', H'' in E. discriminate.
  Qed.

  Lemma build_made rs ln rn s : sources_ok ln rn s -> forall src, In src s ->
    made_of P left right {| columns := out_columns; rows := rs |} src (build src).
  Proof.
    intros (_ & H2 & H3 & H4 & H5) src Hsrc.
    destruct WL as (NL & LL & SL), WR as (NR & LR & SR).
    assert (Hi : match fst src with Some i => i < n | None => True end).
    { destruct src as [[i|] [j|]]; cbn; try exact I; [apply H2 in Hsrc | apply H3 in Hsrc]; tauto. }
    assert (Hj : match snd src with Some j => j < m | None => True end).
    { destruct src as [[i|] [j|]]; cbn; try exact I; [apply H2 in Hsrc | apply H4 in Hsrc]; tauto. }
    assert (Hlen : forall i, i < n -> List.length (A i) = List.length lc) by (intros i H; apply LL, in_left, H).
    split.
    - intros c name Hc Hn. apply renamed in Hn. subst name. cbn [columns]. unfold out_columns.
      set (f := fun c0 => if mem c0 lc && mem c0 rc && negb (mem c0 on) then String.append c0 "_x" else c0).
      change (if mem c lc && mem c rc && negb (mem c on) then (c ++ "_x")%string else c) with (f c).
      destruct src as [[i|] [j|]]; cbn [fst snd] in *.
      + exists (field lc (A i) c). split.
        * apply holds_app_l, holds_rename, holds_field; [apply Hlen; exact Hi | exact Hc].
        * exists (A i). split; [apply at_left; split; [exact Hi | reflexivity]|]. apply holds_field; [apply Hlen; exact Hi | exact Hc].
      + exists (field lc (A i) c). split.
        * apply holds_app_l, holds_rename, holds_field; [apply Hlen; exact Hi | exact Hc].
        * exists (A i). split; [apply at_left; split; [exact Hi | reflexivity]|]. apply holds_field; [apply Hlen; exact Hi | exact Hc].
      + exists (if mem c on then field rc (B j) c else Null). split.
        * apply holds_app_l, holds_rename. exact (holds_map (fun c => if mem c on then field rc (B j) c else Null) lc c Hc).
        * split; intros Ho; rewrite HP in Ho.
          -- rewrite (proj2 (mem_iff c on) Ho). exists (B j). split; [apply at_right; split; [exact Hj | reflexivity]|].
             apply holds_field; [apply LR, in_right, Hj | exact (IR _ Ho)].
          -- rewrite (proj2 (mem_false c on) Ho). reflexivity.
      + contradiction.
    - intros c name Hc Ho Hn. apply renamed in Hn. subst name. cbn [columns]. unfold out_columns.
      set (f := fun c0 => if mem c0 lc && mem c0 rc && negb (mem c0 on) then String.append c0 "_x" else c0).
      set (g := fun c0 => if mem c0 lc && mem c0 rc && negb (mem c0 on) then String.append c0 "_y" else c0).
      change (if mem c lc && mem c rc && negb (mem c on) then (c ++ "_y")%string else c) with (g c).
      assert (Hr : In c rest).
      { apply filter_In. split; [exact Hc|]. apply negb_true_iff, mem_false. rewrite <- HP. exact Ho. }
      destruct src as [[i|] [j|]]; cbn [fst snd] in *.
      + exists (field rc (B j) c). split.
        * apply holds_app_r; [rewrite map_length; apply Hlen; exact Hi|]. apply holds_rename, holds_map, Hr.
        * exists (B j). split; [apply at_right; split; [exact Hj | reflexivity]|]. apply holds_field; [apply LR, in_right, Hj | exact Hc].
      + exists Null. split; [|reflexivity].
        apply holds_app_r; [rewrite map_length; apply Hlen; exact Hi|]. apply holds_rename.
        exact (holds_map (fun _ => Null) rest c Hr).
      + exists (field rc (B j) c). split.
        * apply holds_app_r; [rewrite !map_length; reflexivity|]. apply holds_rename, holds_map, Hr.
        * exists (B j). split; [apply at_right; split; [exact Hj | reflexivity]|]. apply holds_field; [apply LR, in_right, Hj | exact Hc].
      + contradiction.
  Qed.

  Lemma M_agree i j l r : row_at left i l -> row_at right j r -> (M i j = true <-> agree P left right l r).
  Proof.
    intros Hl Hr. apply at_left in Hl. apply at_right in Hr. destruct Hl as [Hi ->], Hr as [Hj ->].
    apply matches_agree; [apply in_left, Hi | apply in_right, Hj].
  Qed.
  Lemma sources_joined ln rn s : sources_ok ln rn s ->
    joined P ln rn left right {| columns := out_columns; rows := map build s |}.
  Proof.
    intros Hok. pose proof Hok as (H1 & H2 & H3 & H4 & H5). exists s.
    split; [exact H1|]. split; [|split; [|split; [|split; [exact H5|]]]].
    - intros i j. rewrite (H2 i j). split.
      + intros (Hi & Hj & HM). exists (A i), (B j).
        assert (Ha : row_at left i (A i)) by (apply at_left; split; [exact Hi | reflexivity]).
        assert (Hb : row_at right j (B j)) by (apply at_right; split; [exact Hj | reflexivity]).
        split; [exact Ha|]. split; [exact Hb|]. exact (proj1 (M_agree _ _ _ _ Ha Hb) HM).
      + intros (l & r & Hl & Hr & Ha). split; [exact (proj1 (proj1 (at_left _ _) Hl))|].
        split; [exact (proj1 (proj1 (at_right _ _) Hr))|]. exact (proj2 (M_agree _ _ _ _ Hl Hr) Ha).
    - intros i. rewrite (H3 i). split.
      + intros (Hb & Hi & HM). split; [exact Hb|]. exists (A i).
        assert (Ha : row_at left i (A i)) by (apply at_left; split; [exact Hi | reflexivity]).
        split; [exact Ha|]. intros j r Hr Hag. pose proof (proj1 (proj1 (at_right _ _) Hr)) as Hj.
        rewrite <- (M_agree _ _ _ _ Ha Hr), (HM j Hj) in Hag. discriminate.
      + intros (Hb & l & Hl & Hn). split; [exact Hb|]. split; [exact (proj1 (proj1 (at_left _ _) Hl))|].
        intros j Hj. destruct (M i j) eqn:E; [|reflexivity]. exfalso.
        assert (Hr : row_at right j (B j)) by (apply at_right; split; [exact Hj | reflexivity]).
        apply (Hn j (B j) Hr). exact (proj1 (M_agree _ _ _ _ Hl Hr) E).
    - intros j. rewrite (H4 j). split.
      + intros (Hb & Hj & HM). split; [exact Hb|]. exists (B j).
        assert (Hr : row_at right j (B j)) by (apply at_right; split; [exact Hj | reflexivity]).
        split; [exact Hr|]. intros i l Hl Hag. pose proof (proj1 (proj1 (at_left _ _) Hl)) as Hi.
        rewrite <- (M_agree _ _ _ _ Hl Hr), (HM i Hi) in Hag. discriminate.
      + intros (Hb & r & Hr & Hn). split; [exact Hb|]. split; [exact (proj1 (proj1 (at_right _ _) Hr))|].
        intros i Hi. destruct (M i j) eqn:E; [|reflexivity]. exfalso.
        assert (Hl : row_at left i (A i)) by (apply at_left; split; [exact Hi | reflexivity]).
        apply (Hn i (A i) Hl). exact (proj1 (M_agree _ _ _ _ Hl Hr) E).
    - cbn [rows]. apply forall2_map_r. intros src Hsrc. exact (build_made _ ln rn s Hok src Hsrc).
  Qed.

  Lemma pd_merge_joined arrange ln rn : (forall l, Permutation (arrange l) l) -> on <> [] ->
    exists out, pd_merge arrange left right on (how ln rn) = Ok out /\ joined P ln rn left right out /\
      columns out = out_columns.
  Proof.
    intros Harr Hon.
    assert (Hgoal : forall h rs, (match h with
        | Inner => flat_map (fun l => map (fun r => l ++ map (field rc r) rest) (filter (matches l) (rows right))) (rows left)
        | Left => flat_map (fun l => match filter (matches l) (rows right) with
            | [] => [l ++ map (fun _ => Null) rest]
            | ms => map (fun r => l ++ map (field rc r) rest) ms end) (rows left)
        | Right => flat_map (fun r => match filter (fun l => matches l r) (rows left) with
            | [] => [map (fun c => if mem c on then field rc r c else Null) lc ++ map (field rc r) rest]
            | ms => map (fun l => l ++ map (field rc r) rest) ms end) (rows right)
        | Outer => arrange (flat_map (fun l => match filter (matches l) (rows right) with
            | [] => [l ++ map (fun _ => Null) rest]
            | ms => map (fun r => l ++ map (field rc r) rest) ms end) (rows left) ++
          map (fun r => map (fun c => if mem c on then field rc r c else Null) lc ++ map (field rc r) rest)
            (filter (fun r => negb (existsb (fun l => matches l r) (rows left))) (rows right)))
        end) = rs -> pd_merge arrange left right on h = Ok {| columns := out_columns; rows := rs |}).
    { intros h rs <-. unfold pd_merge. rewrite (not_nil on) by exact Hon. reflexivity. }
    destruct ln, rn; cbn [how andb negb]; unfold how; cbn [andb negb].
    - rewrite (Hgoal Outer _ eq_refl). eexists. split; [reflexivity|]. split; [|reflexivity].
      rewrite build_left, build_extra, <- map_app.
      destruct (Permutation_map_inv build _ (Permutation_sym (Permutation_sym (Harr (map build (left_src ++ extra_src)))))) as [s [Hs Hp]].
      rewrite Hs. apply sources_joined. exact (ok_perm _ _ _ _ Hp outer_ok).
    - rewrite (Hgoal Right _ eq_refl). eexists. split; [reflexivity|]. split; [|reflexivity].
      rewrite build_right. apply sources_joined, right_ok.
    - rewrite (Hgoal Left _ eq_refl). eexists. split; [reflexivity|]. split; [|reflexivity].
      rewrite build_left. apply sources_joined, left_ok.
    - rewrite (Hgoal Inner _ eq_refl). eexists. split; [reflexivity|]. split; [|reflexivity].
      rewrite build_inner. apply sources_joined, inner_ok.
  Qed.
End Pair.
