From Coq Require Import String Ascii.
From Verif Require Import Base ResultLib BreakdownModel StreamModel StreamSpec StreamProofs.
Open Scope list_scope.
Open Scope Z_scope.

(** ** Keys *)
Lemma key_inj n n' m m' : no_slash n -> no_slash n' -> key n m = key n' m' -> n = n' /\ m = m'.
Proof.
  unfold key, no_slash. revert n'. induction n as [|c n IH]; intros [|c' n'] H H' E; cbn [String.append list_ascii_of_string In] in *.
  - injection E as E. split; [reflexivity|exact E].
  - injection E as E _. destruct H'. left. symmetry. exact E.
  - injection E as E _. destruct H. left. exact E.
  - injection E as -> E. destruct (IH n' ltac:(tauto) ltac:(tauto) E) as [-> ->]. split; reflexivity.
Qed.

Lemma get_set d k v : forall k', get_key (set_key d k v) k' = if String.eqb k' k then Some v else get_key d k'.
Proof.
  induction d as [|[k0 v0] d IH]; intros k'; cbn [set_key get_key].
  - reflexivity.
  - destruct (String.eqb_spec k k0) as [->|N]; cbn [get_key].
    + destruct (String.eqb k' k0); reflexivity.
    + rewrite IH. destruct (String.eqb_spec k' k0) as [->|N']; [|reflexivity].
      destruct (String.eqb_spec k0 k) as [->|]; [congruence|reflexivity].
Qed.
Lemma set_keys d k v x : In x (map fst (set_key d k v)) <-> x = k \/ In x (map fst d).
Proof.
  induction d as [|[k0 v0] d IH]; cbn [set_key map fst In]; [intuition|].
  destruct (String.eqb_spec k k0) as [->|N]; cbn [map fst In]; [intuition|]. rewrite IH. intuition.
Qed.
Lemma set_nodup d k v : NoDup (map fst d) -> NoDup (map fst (set_key d k v)).
Proof.
  induction d as [|[k0 v0] d IH]; cbn [set_key map fst]; intros N; [constructor; [intros []|constructor]|].
  inversion N as [|? ? N1 N2]; subst. destruct (String.eqb_spec k k0) as [->|Q]; cbn [map fst]; [exact N|].
  constructor; [|exact (IH N2)]. rewrite set_keys. intros [->|I]; [congruence|exact (N1 I)].
Qed.
Lemma get_in d : NoDup (map fst d) -> forall k v, get_key d k = Some v <-> In (k, v) d.
Proof.
  induction d as [|[k0 v0] d IH]; intros N k v; cbn [get_key In]; [split; [discriminate|intros []]|].
  inversion N as [|? ? N1 N2]; subst. destruct (String.eqb_spec k k0) as [->|Q].
  - split; [intros [= ->]; left; reflexivity|]. intros [E|I]; [congruence|]. apply (in_map fst) in I. destruct (N1 I).
  - rewrite IH by exact N2. split; [right; assumption|]. intros [E|I]; [congruence|exact I].
Qed.

(** ** One loop for the three functions *)
Definition block := nat -> update_op -> list (string * (value_op * update_op)).
Definition add_block (d : dict) (name : string) (l : list (string * (value_op * update_op))) : dict :=
  fold_left (fun d mv => set_key d (key name (fst mv)) (snd mv)) l d.
Definition gstep (keep : string -> bool) (blk : block) (st : dict * bool) (iname : nat * string) : dict * bool :=
  let '(d, added) := st in let '(i, name) := iname in
  if keep name then (add_block d name (blk i (if added then NoOp else UpdateOp)), true) else st.
Definition gloop keep blk names := fold_left (gstep keep blk) (enumerate names) ([], false).

Lemma enumerate_snoc {A} (l : list A) a : enumerate (l ++ [a]) = enumerate l ++ [(length l, a)].
Proof.
  unfold enumerate. rewrite app_length. cbn [length]. rewrite Nat.add_1_r, seq_S. cbn [plus].
  assert (L : length (seq 0 (length l)) = length l) by apply seq_length.
  revert L. generalize (seq 0 (length l)) as s. generalize (length l) at 2 3 as n. induction l as [|b l IH]; intros n [|x s] L; cbn in *; try lia; [reflexivity|].
  f_equal. apply IH. lia.
Qed.
Lemma gloop_snoc keep blk names x : gloop keep blk (names ++ [x]) = gstep keep blk (gloop keep blk names) (length names, x).
Proof. unfold gloop. rewrite enumerate_snoc, fold_left_app. reflexivity. Qed.

Lemma add_block_get name l : forall d k, NoDup (map fst l) -> no_slash name ->
  get_key (add_block d name l) k =
  match find (fun mv => String.eqb k (key name (fst mv))) l with Some mv => Some (snd mv) | None => get_key d k end.
Proof.
  unfold add_block. induction l as [|[m v] l IH]; intros d k N S; cbn [fold_left find fst snd]; [reflexivity|].
  cbn [map fst] in N. inversion N as [|? ? N1 N2]; subst. rewrite (IH _ _ N2 S).
  destruct (String.eqb_spec k (key name m)) as [->|Q].
  - replace (find (fun mv => String.eqb (key name m) (key name (fst mv))) l) with (@None (string * (value_op * update_op))).
    + rewrite get_set, String.eqb_refl. reflexivity.
    + symmetry. destruct (find _ l) as [[m' v']|] eqn:F; [|reflexivity]. apply find_some in F as [I E]. cbn [fst] in E.
      apply String.eqb_eq in E. apply key_inj in E as [_ ->]; [|exact S|exact S]. destruct N1. apply (in_map fst) in I. exact I.
  - rewrite get_set. apply String.eqb_neq in Q. rewrite Q. reflexivity.
Qed.
Lemma add_block_nodup name l : forall d, NoDup (map fst d) -> NoDup (map fst (add_block d name l)).
Proof. unfold add_block. induction l as [|[m v] l IH]; intros d N; cbn [fold_left]; [exact N|]. apply IH, set_nodup, N. Qed.

(** Whether a name has been kept so far. *)
Definition seen (keep : string -> bool) (names : list string) : bool := existsb keep names.
Lemma gloop_added keep blk names : snd (gloop keep blk names) = seen keep names.
Proof.
  unfold seen. induction names as [|x names IH] using rev_ind; [reflexivity|].
  rewrite gloop_snoc, existsb_app. cbn [existsb]. rewrite orb_false_r.
  destruct (gloop keep blk names) as [d added]. cbn [gstep snd] in *. destruct (keep x); cbn [snd]; [rewrite orb_true_r; reflexivity|].
  rewrite orb_false_r. exact IH.
Qed.
Lemma gloop_nodup keep blk names : NoDup (map fst (fst (gloop keep blk names))).
Proof.
  induction names as [|x names IH] using rev_ind; [constructor|]. rewrite gloop_snoc.
  destruct (gloop keep blk names) as [d added]. cbn [gstep fst] in *. destruct (keep x); cbn [fst]; [apply add_block_nodup, IH|exact IH].
Qed.

Lemma nth_error_snoc {A} (l : list A) a i b : nth_error (l ++ [a]) i = Some b <-> (nth_error l i = Some b) \/ (i = length l /\ a = b).
Proof.
  destruct (Nat.lt_trichotomy i (length l)) as [L|[->|L]].
  - rewrite nth_error_app1 by exact L. split; [intros H; left; exact H|]. intros [H|[-> _]]; [exact H|lia].
  - rewrite nth_error_app2, Nat.sub_diag by lia. cbn [nth_error]. split; [intros [= ->]; right; split; reflexivity|].
    intros [H|[_ ->]]; [|reflexivity]. assert (N : nth_error l (length l) <> None) by congruence. apply nth_error_Some in N. lia.
  - split.
    + intros H. assert (N : nth_error (l ++ [a]) i <> None) by congruence. apply nth_error_Some in N. rewrite app_length in N. cbn [length] in N. lia.
    + intros [H|[-> _]]; [|lia]. assert (N : nth_error l i <> None) by congruence. apply nth_error_Some in N. lia.
Qed.

Definition first_flag (keep : string -> bool) (names : list string) (i : nat) : update_op :=
  if seen keep (firstn i names) then NoOp else UpdateOp.

Lemma last_snoc_new names x : last_at (names ++ [x]) x (length names).
Proof.
  split; [apply nth_error_snoc; right; split; reflexivity|]. intros j H. apply nth_error_snoc in H as [H|[-> _]]; [|lia].
  assert (N : nth_error names j <> None) by congruence. apply nth_error_Some in N. lia.
Qed.
Lemma last_snoc_old names x n i : n <> x -> (last_at (names ++ [x]) n i <-> last_at names n i).
Proof.
  intros Q. unfold last_at. rewrite nth_error_snoc. split; intros [H1 H2].
  - destruct H1 as [H1|[_ H1]]; [|congruence]. split; [exact H1|]. intros j J. apply H2. apply nth_error_snoc. left. exact J.
  - split; [left; exact H1|]. intros j J. apply nth_error_snoc in J as [J|[_ J]]; [|congruence]. exact (H2 j J).
Qed.
Lemma last_unique names n i j : last_at names n i -> last_at names n j -> i = j.
Proof. intros [A B] [C D]. specialize (B j C). specialize (D i A). lia. Qed.
Lemma last_lt names n i : last_at names n i -> (i < length names)%nat.
Proof. intros [A _]. apply nth_error_Some. congruence. Qed.
Lemma last_in names n i : last_at names n i -> In n names.
Proof. intros [A _]. apply nth_error_In in A. exact A. Qed.

Lemma gloop_get keep blk names : Forall no_slash names -> (forall i u, NoDup (map fst (blk i u))) ->
  (forall i u i' u', map fst (blk i u) = map fst (blk i' u')) ->
  forall k v, get_key (fst (gloop keep blk names)) k = Some v <->
    exists name i m, last_at names name i /\ keep name = true /\ k = key name m /\ In (m, v) (blk i (first_flag keep names i)).
Proof.
  intros NS ND NM. induction names as [|x names IH] using rev_ind; intros k v.
  - cbn. split; [discriminate|]. intros (n & i & m & L & _). apply last_lt in L. cbn in L. lia.
  - apply Forall_app in NS as [NS NX]. apply Forall_inv in NX. specialize (IH NS).
    rewrite gloop_snoc. pose proof (gloop_added keep blk names) as GA.
    destruct (gloop keep blk names) as [d added] eqn:G. cbn [fst snd gstep] in *. subst added.
    assert (FL : forall i, (i <= length names)%nat -> first_flag keep (names ++ [x]) i = first_flag keep names i).
    { intros i L. unfold first_flag. rewrite firstn_app. replace (i - length names)%nat with 0%nat by lia. cbn [firstn]. rewrite app_nil_r. reflexivity. }
    assert (FN : first_flag keep (names ++ [x]) (length names) = if seen keep names then NoOp else UpdateOp).
    { rewrite FL by lia. unfold first_flag. rewrite firstn_all. reflexivity. }
    destruct (keep x) eqn:K; cbn [fst].
    + rewrite add_block_get by (try apply ND; exact NX). rewrite <- FN. set (b := blk (length names) (first_flag keep (names ++ [x]) (length names))).
      destruct (find _ b) as [[m0 v0]|] eqn:F.
      * apply find_some in F as [I E]. cbn [fst snd] in *. apply String.eqb_eq in E. subst k. split.
        -- intros [= ->]. exists x, (length names), m0. split; [apply last_snoc_new|]. split; [exact K|]. split; [reflexivity|exact I].
        -- intros (n & i & m & L & Kn & E & J). apply key_inj in E as [<- <-]; [|exact NX|].
           ++ pose proof (last_unique _ _ _ _ L (last_snoc_new names x)) as ->. fold b in J. f_equal.
              assert (U : forall l : list (string * (value_op * update_op)), NoDup (map fst l) -> In (m0, v0) l -> In (m0, v) l -> v0 = v).
              { clear. intros l N A B. induction l as [|[a c] l IH]; [destruct A|]. cbn [map fst] in N. inversion N as [|? ? N1 N2]; subst.
                destruct A as [A|A], B as [B|B]; [congruence| | |exact (IH N2 A B)].
                - injection A as -> ->. apply (in_map fst) in B. destruct (N1 B).
                - injection B as -> ->. apply (in_map fst) in A. destruct (N1 A). }
              exact (U b (ND _ _) I J).
           ++ apply last_in in L. apply in_app_or in L as [L|[<-|[]]]; [|exact NX]. rewrite Forall_forall in NS. exact (NS n L).
      * rewrite IH. split; intros (n & i & m & L & Kn & E & J); exists n, i, m.
        -- assert (Q : n <> x \/ n = x) by (destruct (string_dec n x); tauto). destruct Q as [Q|Q].
           ++ split; [apply last_snoc_old; assumption|]. split; [exact Kn|]. split; [exact E|].
              rewrite FL by (apply last_lt in L; lia). exact J.
           ++ exfalso. subst n. 
              assert (M : exists v', In (m, v') b).
              { apply (in_map fst) in J. cbn [fst] in J. rewrite (NM _ _ (length names) (first_flag keep (names ++ [x]) (length names))) in J.
                apply in_map_iff in J as ([m' v'] & <- & J). exists v'. exact J. }
              destruct M as [v' M]. apply (find_none _ _ F) in M. cbn [fst] in M. rewrite E, String.eqb_refl in M. discriminate.
        -- assert (Q : n <> x).
           { intros ->. pose proof (last_unique _ _ _ _ L (last_snoc_new names x)) as ->. fold b in J.
             apply (find_none _ _ F) in J. cbn [fst] in J. rewrite E, String.eqb_refl in J. discriminate. }
           apply last_snoc_old in L; [|exact Q]. split; [exact L|]. split; [exact Kn|]. split; [exact E|].
           rewrite FL in J by (apply last_lt in L; lia). exact J.
    + rewrite IH. split; intros (n & i & m & L & Kn & E & J); exists n, i, m.
      * split; [apply last_snoc_old; [congruence|exact L]|]. split; [exact Kn|]. split; [exact E|].
        rewrite FL by (apply last_lt in L; lia). exact J.
      * assert (Q : n <> x) by congruence. apply last_snoc_old in L; [|exact Q]. split; [exact L|]. split; [exact Kn|]. split; [exact E|].
        rewrite FL in J by (apply last_lt in L; lia). exact J.
Qed.

(** ** The three dictionaries *)
Lemma prefix_iff f s : String.prefix f s = true <-> exists b, s = (f ++ b)%string.
Proof.
  revert s. induction f as [|c f IH]; intros [|c' s]; cbn [String.prefix String.append]; split; intros H.
  - exists EmptyString. reflexivity.
  - reflexivity.
  - exists (String c' s). reflexivity.
  - reflexivity.
  - discriminate.
  - destruct H as [b H]. discriminate.
  - destruct (ascii_dec c c') as [->|]; [|discriminate]. apply IH in H as [b ->]. exists b. reflexivity.
  - destruct H as [b H]. injection H as -> ->. destruct (ascii_dec c c) as [|N]; [|congruence]. apply IH. exists b. reflexivity.
Qed.
Lemma contains_iff f s : contains f s = true <-> exists a b, s = (a ++ f ++ b)%string.
Proof.
  induction s as [|c s IH]; cbn [contains]; rewrite orb_true_iff, prefix_iff.
  - split.
    + intros [[b E]|H]; [|discriminate]. exists EmptyString, b. exact E.
    + intros ([|c a] & b & E); [|discriminate]. left. exists b. exact E.
  - rewrite IH. split.
    + intros [[b E]|(a & b & E)]; [exists EmptyString, b; exact E|]. exists (String c a), b. cbn [String.append]. rewrite E. reflexivity.
    + intros ([|c' a] & b & E); cbn [String.append] in E; [left; exists b; exact E|]. injection E as -> E. right. exists a, b. exact E.
Qed.

Definition keepb (filter : option string) (name : string) : bool :=
  match filter with None => true | Some f => contains f name end.
Lemma keepb_iff filter name : keepb filter name = true <-> kept filter name.
Proof. destruct filter as [f|]; cbn [keepb kept]; [apply contains_iff|tauto]. Qed.

Lemma first_flag_iff filter names i : (exists n, nth_error names i = Some n /\ kept filter n) ->
  (first_flag (keepb filter) names i = UpdateOp <-> first_kept filter names i).
Proof.
  intros E. unfold first_flag, first_kept, seen. destruct (existsb (keepb filter) (firstn i names)) eqn:X.
  - split; [discriminate|]. intros [_ H]. exfalso. apply existsb_exists in X as (n & I & K). apply keepb_iff in K.
    apply In_nth_error in I as [j J]. assert (L : (j < length (firstn i names))%nat) by (apply nth_error_Some; congruence).
    rewrite firstn_length in L. assert (J' : nth_error names j = Some n).
    { rewrite <- (firstn_skipn i names), nth_error_app1; [exact J|]. rewrite firstn_length. exact L. }
    exact (H j n ltac:(lia) J' K).
  - split; [|reflexivity]. intros _. split; [exact E|]. intros j n L J K. apply keepb_iff in K.
    assert (Y : existsb (keepb filter) (firstn i names) = true); [|congruence]. apply existsb_exists. exists n. split; [|exact K].
    apply nth_error_In with j. assert (B : (j < length names)%nat) by (apply nth_error_Some; congruence).
    rewrite <- (firstn_skipn i names), nth_error_app1 in J; [exact J|]. rewrite firstn_length. lia.
Qed.

Lemma report_general filter blk names d entry : d = fst (gloop (keepb filter) blk names) ->
  Forall no_slash names -> (forall i u, NoDup (map fst (blk i u))) ->
  (forall i u i' u', map fst (blk i u) = map fst (blk i' u')) ->
  (forall i u P m v, carries P u -> (In (m, v) (blk i u) <-> entry i P m v)) ->
  reports d filter names entry.
Proof.
  intros -> NS ND NM EN k v. rewrite (gloop_get _ _ _ NS ND NM).
  split; intros (n & i & m & L & K & E & J); exists n, i, m; (split; [exact L|]).
  - apply keepb_iff in K. split; [exact K|]. split; [exact E|].
    apply (EN i (first_flag (keepb filter) names i) (first_kept filter names i)); [|exact J].
    apply first_flag_iff. exists n. split; [exact (proj1 L)|exact K].
  - split; [apply keepb_iff; exact K|]. split; [exact E|].
    apply (EN i (first_flag (keepb filter) names i) (first_kept filter names i)); [|exact J].
    apply first_flag_iff. exists n. split; [exact (proj1 L)|exact K].
Qed.

Definition detection_block (show : Q -> string) (recall : option Q) : block := fun i u =>
  ([("AP", (Element "ap" i, u)); ("APH", (Element "aph" i, NoOp)); ("APL", (Element "apl" i, NoOp))]%string ++
  match recall with None => [] | Some p => [(("Recall@" ++ show p)%string, (RecallAt p i, NoOp))] end)%list.
Lemma detection_gloop show recall filter names :
  detection_metric_ops show recall filter names = fst (gloop (keepb filter) (detection_block show recall) names).
Proof.
  unfold detection_metric_ops, gloop. f_equal. generalize (@nil (string * (value_op * update_op)), false) as st.
  induction (enumerate names) as [|[i x] l IH]; intros st; cbn [fold_left]; [reflexivity|]. rewrite IH. f_equal.
  destruct st as [d added]. unfold detection_step, gstep, keepb, detection_block, add_block.
  destruct filter as [f|]; [destruct (contains f x)|]; cbn [negb]; destruct recall; reflexivity.
Qed.
Ltac members := cbn [In app fst snd]; split; [intros H; repeat (destruct H as [H|H]; [injection H as <- <-; tauto|]); destruct H|].
Theorem detection_reports show recall filter names : Forall no_slash names ->
  reports (detection_metric_ops show recall filter names) filter names (detection_entry show recall).
Proof.
  intros NS. eapply report_general; [apply detection_gloop|exact NS| | |].
  - intros i u. unfold detection_block. destruct recall as [p|]; cbn [map app fst];
      repeat constructor; cbn [In]; intros H; repeat (destruct H as [H|H]; [discriminate|]); destruct H.
  - intros i u i' u'. unfold detection_block. destruct recall; reflexivity.
  - intros i u P m v C. unfold detection_block, detection_entry. destruct recall as [p|]; cbn [In app]; split.
    + intros [H|[H|[H|[H|[]]]]]; injection H as <- <-; cbn [fst snd]; [left; auto|right; left; auto|right; right; left; auto|].
      right; right; right. exists p. auto.
    + intros [(-> & E & D)|[[-> ->]|[[-> ->]|(q & [= <-] & -> & ->)]]]; [|auto|auto|auto].
      left. f_equal. destruct v as [a b]. cbn [fst snd] in *. subst a. f_equal. unfold carries in *. destruct u, b; try reflexivity;
        [symmetry; tauto|tauto].
    + intros [H|[H|[H|[]]]]; injection H as <- <-; cbn [fst snd]; [left; auto|right; left; auto|right; right; left; auto].
    + intros [(-> & E & D)|[[-> ->]|[[-> ->]|(q & H & _)]]]; [|auto|auto|discriminate].
      left. f_equal. destruct v as [a b]. cbn [fst snd] in *. subst a. f_equal. unfold carries in *. destruct u, b; try reflexivity;
        [symmetry; tauto|tauto].
Qed.

Definition plain_block (first : string * string) (others : list (string * string)) : block := fun i u =>
  (fst first, (Element (snd first) i, u)) :: map (fun mo => (fst mo, (Element (snd mo) i, NoOp))) others.
Lemma plain_gloop first others names :
  fold_left (plain_step first others) (enumerate names) [] = fst (gloop (keepb None) (plain_block first others) names).
Proof.
  induction names as [|x names IH] using rev_ind; [reflexivity|].
  pose proof (gloop_added (keepb None) (plain_block first others) names) as GA.
  rewrite gloop_snoc, enumerate_snoc, fold_left_app. cbn [fold_left]. rewrite IH.
  destruct (gloop (keepb None) (plain_block first others) names) as [d added]. cbn [fst snd] in *. subst added.
  cbn [gstep keepb fst]. unfold plain_step, plain_block, add_block. cbn [fold_left fst snd].
  replace (if seen (keepb None) names then NoOp else UpdateOp) with (if Nat.eqb (length names) 0 then UpdateOp else NoOp)
    by (destruct names; reflexivity).
  clear IH. generalize (set_key d (key x (fst first)) (Element (snd first) (length names), if Nat.eqb (length names) 0 then UpdateOp else NoOp)) as d'.
  induction others as [|mo others IHo]; intros d'; cbn [fold_left map fst snd]; [reflexivity|]. apply IHo.
Qed.
Ltac plain_entry C :=
  split; [intros [H|[H|[H|[H|[H|[]]]]]]; injection H as <- <-; cbn [fst snd]; auto 8|
    intros [(-> & E & D)|[[-> ->]|[[-> ->]|[[-> ->]|[-> ->]]]]]; [|auto 8..]; left; f_equal;
    match goal with v : (_ * _)%type |- _ => destruct v as [a b] end; cbn [fst snd] in *; subst; f_equal; unfold carries in *;
    match goal with |- ?u = ?b => destruct u, b end; try reflexivity; [symmetry; tauto|tauto]].
Theorem tracking_reports names : Forall no_slash names -> reports (tracking_metric_ops names) None names tracking_entry.
Proof.
  intros NS. eapply report_general; [apply plain_gloop|exact NS| | |].
  - intros i u. cbn. repeat constructor; cbn [In]; intros H; repeat (destruct H as [H|H]; [discriminate|]); destruct H.
  - intros. reflexivity.
  - intros i u P m v C. unfold plain_block, tracking_entry. cbn [map fst snd In]. plain_entry C.
Qed.
Theorem motion_reports names : Forall no_slash names -> reports (motion_metric_ops names) None names motion_entry.
Proof.
  intros NS. eapply report_general; [apply plain_gloop|exact NS| | |].
  - intros i u. cbn. repeat constructor; cbn [In]; intros H; repeat (destruct H as [H|H]; [discriminate|]); destruct H.
  - intros. reflexivity.
  - intros i u P m v C. unfold plain_block, motion_entry. cbn [map fst snd In]. plain_entry C.
Qed.

(** ** Updating once *)
Definition is_update (e : string * (value_op * update_op)) : bool := match snd (snd e) with UpdateOp => true | NoOp => false end.
Lemma run_none f d s b : (forall e, In e d -> is_update e = false) -> run_updates f d s b = Ok s.
Proof.
  unfold run_updates. induction d as [|e d IH]; intros H; cbn [foldM]; [reflexivity|].
  pose proof (H e (or_introl eq_refl)) as E. unfold is_update in E. destruct (snd (snd e)); [discriminate|]. cbn [bind].
  apply IH. intros e' I. exact (H e' (or_intror I)).
Qed.
Lemma run_one f d : forall s b e, In e d -> NoDup d -> is_update e = true -> (forall e', In e' d -> is_update e' = true -> e' = e) ->
  run_updates f d s b = run_update f s b.
Proof.
  induction d as [|e0 d IH]; intros s b e I N U Q; [destruct I|]. inversion N as [|? ? N1 N2]; subst.
  unfold run_updates. cbn [foldM]. destruct (is_update e0) eqn:E0.
  - pose proof (Q e0 (or_introl eq_refl) E0) as ->. unfold is_update in U. destruct (snd (snd e)); [|discriminate].
    destruct (run_update f s b) as [s'|]; [|reflexivity]. cbn [bind]. apply run_none.
    intros e' I'. destruct (is_update e') eqn:E'; [|reflexivity]. rewrite (Q e' (or_intror I') E') in I'. destruct (N1 I').
  - destruct I as [->|I]; [congruence|]. unfold is_update in E0. destruct (snd (snd e0)); [discriminate|]. cbn [bind].
    apply (IH s b e I N2 U). intros e' I'. exact (Q e' (or_intror I')).
Qed.
(** The entries that carry the update, in a dictionary that reports. *)
Definition first_metric (entry : nat -> Prop -> string -> value_op * update_op -> Prop) (m : string) : Prop :=
  (forall i P m' v, entry i P m' v -> snd v = UpdateOp -> m' = m /\ P) /\
  (forall i (P : Prop), P -> exists v, entry i P m (v, UpdateOp)).
Lemma nodup_map {A B} (g : A -> B) l : NoDup (map g l) -> NoDup l.
Proof. apply NoDup_map_inv. Qed.
Lemma first_kept_unique filter names i j : first_kept filter names i -> first_kept filter names j -> i = j.
Proof.
  intros [(n & A & K) B] [(n' & A' & K') B']. destruct (Nat.lt_trichotomy i j) as [L|[E|L]]; [|exact E|].
  - destruct (B' i n L A K).
  - destruct (B j n' L A' K').
Qed.
Theorem updates_once f d filter names entry m0 : reports d filter names entry -> NoDup (map fst d) -> first_metric entry m0 ->
  forall s b,
  ((exists i name, first_kept filter names i /\ last_at names name i) ->
     run_updates f d s b = run_update f s b /\ run_updates_together f d s b = run_update f s b) /\
  (~ (exists i name, first_kept filter names i /\ last_at names name i) ->
     run_updates f d s b = Ok s /\ run_updates_together f d s b = Ok s).
Proof.
  intros R N [F1 F2] s b.
  assert (C : forall e, In e d -> is_update e = true -> exists i name, first_kept filter names i /\ last_at names name i /\ fst e = key name m0).
  { intros [k [v u]] I U. apply (get_in d N) in I. apply R in I as (n & i & m & L & K & E & EN). unfold is_update in U. cbn [fst snd] in *.
    destruct u; [|discriminate]. destruct (F1 _ _ _ _ EN eq_refl) as [-> P]. exists i, n. split; [exact P|]. split; [exact L|exact E]. }
  split.
  - intros (i & name & FK & L).
    assert (K : kept filter name).
    { destruct FK as [(n & A & K) _]. destruct L as [A' _]. congruence. }
    destruct (F2 i _ FK) as [v EN].
    assert (I : In (key name m0, (v, UpdateOp)) d).
    { apply (get_in d N). apply R. exists name, i, m0. split; [exact L|]. split; [exact K|]. split; [reflexivity|exact EN]. }
    split.
    + apply (run_one f d s b _ I); [apply (nodup_map fst), N|reflexivity|].
      intros [k [v' u]] I' U. destruct (C _ I' U) as (i' & n' & FK' & L' & E). cbn [fst] in E. subst k.
      pose proof (first_kept_unique _ _ _ _ FK FK') as <-. assert (n' = name) as -> by (destruct L, L'; congruence).
      apply (get_in d N) in I, I'. congruence.
    + unfold run_updates_together. replace (existsb _ d) with true; [reflexivity|]. symmetry. apply existsb_exists.
      exists (key name m0, (v, UpdateOp)). split; [exact I|reflexivity].
  - intros H. assert (Z : forall e, In e d -> is_update e = false).
    { intros e I. destruct (is_update e) eqn:U; [|reflexivity]. destruct (C e I U) as (i & n & A & B & _). destruct H. exists i, n. split; assumption. }
    split; [apply run_none, Z|]. unfold run_updates_together. replace (existsb _ d) with false; [reflexivity|]. symmetry.
    apply not_true_is_false. rewrite existsb_exists. intros (e & I & U). specialize (Z e I). unfold is_update in Z. congruence.
Qed.
Lemma detection_first show recall : first_metric (detection_entry show recall) "AP".
Proof.
  split.
  - intros i P m v [(-> & _ & C)|[[-> ->]|[[-> ->]|(p & _ & _ & ->)]]]; cbn [snd]; try discriminate. intros U. split; [reflexivity|]. apply C, U.
  - intros i P p. exists (Element "ap" i). left. split; [reflexivity|]. split; [reflexivity|]. unfold carries. cbn [snd]. tauto.
Qed.
Lemma tracking_first : first_metric tracking_entry "MOTA".
Proof.
  split.
  - intros i P m v [(-> & _ & C)|[[-> ->]|[[-> ->]|[[-> ->]|[-> ->]]]]]; cbn [snd]; try discriminate. intros U. split; [reflexivity|]. apply C, U.
  - intros i P p. exists (Element "mota" i). left. split; [reflexivity|]. split; [reflexivity|]. unfold carries. cbn [snd]. tauto.
Qed.
Lemma motion_first : first_metric motion_entry "minADE".
Proof.
  split.
  - intros i P m v [(-> & _ & C)|[[-> ->]|[[-> ->]|[[-> ->]|[-> ->]]]]]; cbn [snd]; try discriminate. intros U. split; [reflexivity|]. apply C, U.
  - intros i P p. exists (Element "min_ade" i). left. split; [reflexivity|]. split; [reflexivity|]. unfold carries. cbn [snd]. tauto.
Qed.
