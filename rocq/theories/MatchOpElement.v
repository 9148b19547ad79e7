From Coq Require Import Sorted Permutation.
From Verif Require Import Base ResultLib ListLib HungarianModel HungarianSpec MatcherModel MatcherSpec MatcherProofs MatchOpModel MatchOpSpec MatchOpProofs.
Open Scope Z_scope.

Lemma list_as_nth (l : list nat) : l = map (fun k => nth k l 0%nat) (seq 0 (length l)).
Proof.
  induction l as [|a l IH]; [reflexivity|]. cbn [length seq map nth]. f_equal. rewrite <- seq_shift, map_map. exact IH.
Qed.
Section Elem.
Variables (fns : functions) (thr : Q) (t : box_type) (lc : let_config) (d np ng : nat) (fp fg : nat -> nat -> Q).
Hypothesis known : t <> BOX_UNKNOWN.
Hypothesis range : in_range fns lc d np ng fp fg.
Let cfg := create_config fns thr lc.
Let fr : frame lbox := {| preds := objs d np fp; gts := objs d ng fg |}.
Let psub := picked t d np fp.
Let gsub := picked t d ng fg.
Notation may := (may_match fns thr t lc d np ng fp fg).
Notation gain' := (gain fns lc d fp fg).

Lemma iou_is p g : pair_iou cfg (mkobj p) (mkobj g) = overlap fns lc p g.
Proof. unfold cfg, create_config. destruct lc as [[]|]; reflexivity. Qed.
Lemma affinity_is p g : pair_affinity cfg (mkobj p) (mkobj g) = affinity_of fns lc p g.
Proof. unfold cfg, create_config. destruct lc as [[]|]; reflexivity. Qed.
Lemma in_objs n f o : In o (objs d n f) -> exists i, (i < n)%nat /\ o = mkobj (box_of d (f i)).
Proof. unfold objs. intros I. apply in_map_iff in I as (i & <- & I). apply in_seq in I. exists i. split; [lia|reflexivity]. Qed.
Lemma frame_is_ok : frame_ok cfg fr.
Proof.
  split; [|split].
  - intros p I. apply in_objs in I as (i & _ & ->). unfold cfg, create_config. destruct lc as [[]|]; cbn; lia.
  - intros p g I J _. apply in_objs in I as (i & Li & ->). apply in_objs in J as (j & Lj & ->).
    destruct (range i j Li Lj) as [A _]. unfold cfg, create_config. unfold overlap in A. destruct lc as [[]|]; exact A.
  - intros f E p g I J _. apply in_objs in I as (i & Li & ->). apply in_objs in J as (j & Lj & ->).
    destruct (range i j Li Lj) as [_ A]. unfold cfg, create_config in E. unfold affinity_of in A. destruct lc as [[]|]; try discriminate.
    injection E as <-. exact A.
Qed.
Lemma psub_ok : subset_ok (preds fr) psub.
Proof. apply Forall_forall. intros i I. apply picked_in in I as [I _]. cbn [preds fr]. rewrite objs_length. exact I. Qed.
Lemma gsub_ok : subset_ok (gts fr) gsub.
Proof. apply Forall_forall. intros i I. apply picked_in in I as [I _]. cbn [gts fr]. rewrite objs_length. exact I. Qed.
Lemma nth_picked n f k : (k < length (picked t d n f))%nat -> nth_error (picked t d n f) k = Some (nth k (picked t d n f) 0%nat).
Proof. intros L. apply nth_error_nth'. exact L. Qed.
Lemma selected_at n f k : (k < length (picked t d n f))%nat ->
  selected (objs d n f) (picked t d n f) k = Some (mkobj (box_of d (f (nth k (picked t d n f) 0%nat)))).
Proof.
  intros L. unfold selected. rewrite nth_picked by exact L. apply objs_nth.
  assert (I : In (nth k (picked t d n f) 0%nat) (picked t d n f)) by (apply nth_In; exact L). apply picked_in in I as [I _]. exact I.
Qed.
Lemma allowed_iff p g : allowed cfg (mkobj p) (mkobj g) <-> (thr <= overlap fns lc p g)%Q /\ ~ (affinity_of fns lc p g == 0)%Q.
Proof.
  unfold allowed. rewrite iou_is, affinity_is.
  assert (E : nth (otype (mkobj p)) (thresholds cfg) 0%Q = thr) by (unfold cfg, create_config; destruct lc as [[]|]; reflexivity). rewrite E. tauto.
Qed.
Lemma pair_ok_iff k c : (k < length psub)%nat -> (c < length gsub)%nat ->
  (pair_ok cfg fr psub gsub k c <-> may (nth k psub 0%nat) (nth c gsub 0%nat)).
Proof.
  intros Lk Lc. unfold pair_ok. cbn [preds gts fr].
  assert (Ik : In (nth k psub 0%nat) psub) by (apply nth_In; exact Lk). assert (Ic : In (nth c gsub 0%nat) gsub) by (apply nth_In; exact Lc).
  unfold psub in Ik. unfold gsub in Ic. apply picked_in in Ik as [Ik Ek]. apply picked_in in Ic as [Ic Ec].
  fold psub in Ik, Ek. fold gsub in Ic, Ec.
  split.
  - intros (p & g & P & G & A). unfold psub in P. rewrite selected_at in P by exact Lk. unfold gsub in G. rewrite selected_at in G by exact Lc.
    injection P as <-. injection G as <-. apply allowed_iff in A as [A B]. unfold may_match. tauto.
  - intros (_ & _ & _ & _ & A & B). eexists _, _. split; [apply selected_at; exact Lk|]. split; [apply selected_at; exact Lc|]. apply allowed_iff. split; assumption.
Qed.
Lemma weight_is k c : (k < length psub)%nat -> (c < length gsub)%nat ->
  pair_weight cfg fr psub gsub k c = gain' (nth k psub 0%nat, nth c gsub 0%nat).
Proof.
  intros Lk Lc. unfold pair_weight. cbn [preds gts fr]. unfold psub, gsub. rewrite !selected_at by assumption.
  unfold objective. rewrite iou_is, affinity_is. reflexivity.
Qed.

(** ** The pairs of an assignment *)
Notation pairs pm := (pairs_of psub gsub (combine (seq 0 (length pm)) pm)).
Lemma pairs_matching pm : valid_assignment (length psub) (length gsub) (pair_ok cfg fr psub gsub) pm ->
  matching fns thr t lc d np ng fp fg (pairs pm) /\ StronglySorted lt (map fst (pairs pm)).
Proof.
  intros (L & V & I).
  assert (SS : StronglySorted lt (map fst (pairs pm))). { apply pairs_sorted; [apply picked_sorted|lia]. }
  split; [|exact SS]. split; [|split].
  - intros i j J. apply pairs_in in J as (k & c & E & -> & ->). destruct (V _ _ E) as (Lk & Lc & O). apply pair_ok_iff; assumption.
  - apply sorted_nodup, SS.
  - apply pairs_snd_nodup; [apply sorted_nodup, picked_sorted| |exact I]. intros i c E. exact (proj1 (proj2 (V _ _ E))).
Qed.
Lemma pairs_total pm : valid_assignment (length psub) (length gsub) (pair_ok cfg fr psub gsub) pm ->
  total fns lc d fp fg (pairs pm) = assignment_weight (length psub) (pair_weight cfg fr psub gsub) pm.
Proof.
  intros (L & V & _). unfold assignment_weight. rewrite <- L.
  assert (G : forall l s, (forall k o, nth_error l k = Some o -> nth (s + k) pm None = o) ->
    total fns lc d fp fg (pairs_of psub gsub (combine (seq s (length l)) l)) =
    Zsum (map (fun i => match nth i pm None with Some j => pair_weight cfg fr psub gsub i j | None => 0 end) (seq s (length l)))).
  { induction l as [|o l IH]; intros s H; [reflexivity|]. cbn [length seq combine map]. unfold Zsum. cbn [fold_right]. fold (Zsum (map (fun i => match nth i pm None with Some j => pair_weight cfg fr psub gsub i j | None => 0 end) (seq (S s) (length l)))).
    rewrite <- IH by (intros k o' E; rewrite <- (H (S k) o' E); f_equal; lia).
    pose proof (H 0%nat o eq_refl) as Ho. rewrite Nat.add_0_r in Ho. rewrite Ho. unfold pairs_of at 1. cbn [flat_map fst snd].
    destruct o as [c|]; cbn [app total]; [|reflexivity]. destruct (V _ _ Ho) as (Lk & Lc & _). rewrite (weight_is s c Lk Lc). reflexivity. }
  apply G. intros k o E. exact (nth_error_nth _ _ _ E).
Qed.

(** ** The assignment of a matching *)
Fixpoint index_of (x : nat) (l : list nat) : option nat :=
  match l with [] => None | y :: l' => if Nat.eqb x y then Some 0%nat else option_map S (index_of x l') end.
Lemma index_of_in x l : In x l -> exists c, index_of x l = Some c /\ (c < length l)%nat /\ nth c l 0%nat = x.
Proof.
  induction l as [|y l IH]; intros I; [destruct I|]. cbn [index_of]. destruct (Nat.eqb_spec x y) as [->|N].
  - exists 0%nat. cbn [length nth]. split; [reflexivity|]. split; [lia|reflexivity].
  - destruct I as [E|I]; [congruence|]. destruct (IH I) as (c & E & L & X). exists (S c). rewrite E. cbn [option_map length nth]. split; [reflexivity|]. split; [lia|exact X].
Qed.
Definition partner (l : list (nat * nat)) (i : nat) : option nat := option_map snd (find (fun ij => Nat.eqb (fst ij) i) l).
Definition as_assignment (l : list (nat * nat)) : list (option nat) :=
  map (fun i => match partner l i with Some j => index_of j gsub | None => None end) psub.
Lemma partner_in l i j : partner l i = Some j -> In (i, j) l.
Proof.
  unfold partner. destruct (find _ l) as [[i' j']|] eqn:E; [|discriminate]. cbn [option_map snd]. intros [= <-].
  apply find_some in E as [I E]. apply Nat.eqb_eq in E. cbn [fst] in E. subst i'. exact I.
Qed.
Section Other.
Variable l' : list (nat * nat).
Hypothesis M : matching fns thr t lc d np ng fp fg l'.
Lemma member i j : In (i, j) l' -> In i psub /\ In j gsub.
Proof. intros I. destruct (proj1 M i j I) as (Li & Lj & Ei & Ej & _). split; apply picked_in; split; assumption. Qed.
Lemma assigned k c : nth k (as_assignment l') None = Some c ->
  (k < length psub)%nat /\ (c < length gsub)%nat /\ In (nth k psub 0%nat, nth c gsub 0%nat) l'.
Proof.
  intros E. assert (Lk : (k < length psub)%nat).
  { destruct (Nat.lt_ge_cases k (length psub)) as [L|L]; [exact L|]. rewrite nth_overflow in E; [discriminate|]. unfold as_assignment. rewrite map_length. exact L. }
  apply nth_some in E. unfold as_assignment in E. rewrite nth_error_map in E.
  rewrite (nth_error_nth' psub 0%nat Lk) in E. cbn [option_map] in E. injection E as E.
  destruct (partner l' (nth k psub 0%nat)) as [j|] eqn:P; [|discriminate]. apply partner_in in P.
  destruct (member _ _ P) as [_ J]. destruct (index_of_in _ _ J) as (c' & E' & Lc & X). rewrite E' in E. injection E as <-.
  split; [exact Lk|]. split; [exact Lc|]. rewrite X. exact P.
Qed.
Lemma as_valid : valid_assignment (length psub) (length gsub) (pair_ok cfg fr psub gsub) (as_assignment l').
Proof.
  split; [apply map_length|]. split.
  - intros k c E. destruct (assigned _ _ E) as (Lk & Lc & I). split; [exact Lk|]. split; [exact Lc|]. apply pair_ok_iff; [exact Lk|exact Lc|]. exact (proj1 M _ _ I).
  - intros k k' c E E'. destruct (assigned _ _ E) as (Lk & _ & I). destruct (assigned _ _ E') as (Lk' & _ & I').
    assert (Q : nth k psub 0%nat = nth k' psub 0%nat).
    { destruct M as (_ & _ & N). clear - I I' N. induction l' as [|[a b] l IH]; [destruct I|]. cbn [map snd] in N. inversion N as [|? ? N1 N2]; subst.
      destruct I as [I|I]; destruct I' as [I'|I'].
      - congruence.
      - injection I as -> ->. destruct N1. apply in_map_iff. eexists (_, _). split; [|exact I']. reflexivity.
      - injection I' as -> ->. destruct N1. apply in_map_iff. eexists (_, _). split; [|exact I]. reflexivity.
      - exact (IH I I' N2). }
    apply NoDup_nth in Q; [exact Q|apply sorted_nodup, picked_sorted|exact Lk|exact Lk'].
Qed.
Lemma as_total : total fns lc d fp fg l' = assignment_weight (length psub) (pair_weight cfg fr psub gsub) (as_assignment l').
Proof.
  transitivity (Zsum (map (fun i => match partner l' i with Some j => gain' (i, j) | None => 0 end) psub)).
  - assert (Hin : forall i j, In (i, j) l' -> In i psub) by (intros i j I; exact (proj1 (member i j I))).
    destruct M as (_ & N & _). clear M. revert N Hin. induction l' as [|[a b] l IH]; intros N Hin.
    + cbn [total]. symmetry. apply Zsum_zero. reflexivity.
    + cbn [map fst] in N. inversion N as [|? ? N1 N2]; subst. cbn [total]. rewrite (IH N2) by (intros i j I; apply (Hin i j); right; exact I).
      rewrite <- (sum_at _ (gain' (a, b)) a).
      * f_equal. apply map_ext. intros i. unfold partner. cbn [find fst]. destruct (Nat.eqb_spec i a) as [->|Q].
        -- rewrite Nat.eqb_refl. reflexivity.
        -- destruct (Nat.eqb_spec a i) as [->|_]; [congruence|reflexivity].
      * apply sorted_nodup, picked_sorted.
      * apply (Hin a b). left. reflexivity.
      * destruct (partner l a) as [j|] eqn:P; [|reflexivity]. apply partner_in in P. destruct N1. apply in_map_iff. exists (a, j). split; [reflexivity|exact P].
  - unfold assignment_weight.
    pose proof (list_as_nth psub) as E.
    rewrite E at 1. rewrite map_map. f_equal. apply map_ext_in. intros k I. apply in_seq in I.
    destruct (nth k (as_assignment l') None) as [c|] eqn:A.
    + destruct (assigned _ _ A) as (Lk & Lc & J). rewrite weight_is by assumption.
      apply nth_some in A. unfold as_assignment in A. rewrite nth_error_map in A.
      rewrite (nth_error_nth' psub 0%nat Lk) in A. cbn [option_map] in A. injection A as A.
      destruct (partner l' (nth k psub 0%nat)) as [j|] eqn:P; [|discriminate]. apply partner_in in P. destruct (member _ _ P) as [_ G].
      destruct (index_of_in _ _ G) as (c' & E' & _ & X). rewrite E' in A. injection A as <-. rewrite X. reflexivity.
    + assert (Lk : (k < length psub)%nat) by lia.
      destruct (partner l' (nth k psub 0%nat)) as [j|] eqn:P; [|reflexivity]. exfalso.
      pose proof (partner_in _ _ _ P) as Pi. destruct (member _ _ Pi) as [_ G]. destruct (index_of_in _ _ G) as (c' & E' & _ & X).
      assert (B : nth_error (as_assignment l') k = Some (Some c')).
      { unfold as_assignment. rewrite nth_error_map, (nth_error_nth' psub 0%nat Lk). cbn [option_map]. rewrite P, E'. reflexivity. }
      rewrite (nth_error_nth _ _ _ B) in A. discriminate.
Qed.
End Other.

(** ** One batch element *)
Definition row_of (ij : nat * nat) : match_row :=
  {| prediction_index := fst ij; ground_truth_index := snd ij;
     row_iou := overlap fns lc (box_of d (fp (fst ij))) (box_of d (fg (snd ij)));
     row_affinity := affinity_of fns lc (box_of d (fp (fst ij))) (box_of d (fg (snd ij))) |}.
Lemma rows_ok pm : valid_assignment (length psub) (length gsub) (pair_ok cfg fr psub gsub) pm ->
  rows cfg fr psub gsub pm = Ok (map row_of (pairs pm)).
Proof.
  intros (L & V & _). unfold rows.
  rewrite (mapM_ok _ (fun im => map row_of (match snd im with None => [] | Some j => [(nth (fst im) psub 0%nat, nth j gsub 0%nat)] end))).
  - cbn [bind]. f_equal. unfold pairs_of. generalize (combine (seq 0 (length pm)) pm). intros l. induction l as [|im l IH]; [reflexivity|].
    cbn [map concat flat_map]. rewrite map_app, IH. reflexivity.
  - intros [k [c|]] I; [|reflexivity]. cbn [fst snd]. apply enum_in, nth_some in I. destruct (V _ _ I) as (Lk & Lc & _).
    rewrite (nth_result_ok _ _ _ _ (nth_error_nth' psub 0%nat Lk)). cbn [bind]. rewrite (nth_result_ok _ _ _ _ (nth_error_nth' gsub 0%nat Lc)). cbn [bind].
    assert (P : nth_error (preds fr) (nth k psub 0%nat) = Some (mkobj (box_of d (fp (nth k psub 0%nat))))).
    { apply objs_nth. apply (picked_in t d np fp). apply nth_In. exact Lk. }
    assert (G : nth_error (gts fr) (nth c gsub 0%nat) = Some (mkobj (box_of d (fg (nth c gsub 0%nat))))).
    { apply objs_nth. apply (picked_in t d ng fg). apply nth_In. exact Lc. }
    rewrite (iou_ok cfg fr frame_is_ok _ _ _ _ P G). cbn [bind]. rewrite (affinity_ok cfg fr frame_is_ok _ _ _ _ P G). cbn [bind map].
    rewrite iou_is, affinity_is. reflexivity.
Qed.
Theorem element_correct : exists l,
  match_boxes cfg MATCHER_HUNGARIAN t (objs d np fp) (objs d ng fg) = Ok (map row_of l) /\
  best fns thr t lc d np ng fp fg l /\ StronglySorted lt (map fst l).
Proof.
  destruct (hungarian_match_correct cfg fr frame_is_ok psub gsub psub_ok gsub_ok) as (pm & gm & E & _ & V & O).
  destruct (pairs_matching pm V) as [Hm Hs]. exists (pairs pm). split; [|split; [split; [exact Hm|]|exact Hs]].
  - unfold match_boxes. rewrite (valid_objs t d np fp known), (valid_objs t d ng fg known). fold psub gsub fr.
    assert (K : match t with BOX_UNKNOWN => Err CheckFailed | _ => Ok tt end = Ok tt) by (destruct t; congruence).
    rewrite K. cbn [bind]. rewrite E. cbn [bind fst]. rewrite (proj2 (Nat.eqb_eq _ _) (eq_sym (proj1 V))). cbn [negb]. exact (rows_ok pm V).
  - intros l' Ml. rewrite (as_total l' Ml), (pairs_total pm V). apply O. exact (as_valid l' Ml).
Qed.
End Elem.
