(** Proofs about BuildSubsets. *)
From Coq Require Import String.
From Verif Require Import Base ResultLib ListLib CutoffModel BreakdownModel BreakdownSpec BreakdownProofs BreakdownNames.
Open Scope Z_scope.

Lemma shard_bounds g o s : implemented g = true -> shard g o = Ok s -> -1 <= s < num_shards g.
Proof. intros Hg E. destruct (num_agree g Hg) as [_ Hn]. destruct (shard_meaning g o s Hg E) as [[-> _]|[H _]]; lia. Qed.
Lemma fov_offsets o t : exists l, mapM (fun c => do k <- camera_offset c; Ok (5 * (type_num t - 1) + k)) (cameras_by_fov (bearing o)) = Ok l /\
  NoDup l /\ (t <> TYPE_UNKNOWN -> forall s, In s l -> 0 <= s < 20).
Proof.
  unfold cameras_by_fov. destruct (in_fov (bearing o) 0), (in_fov (bearing o) 45), (in_fov (bearing o) (-45)), (in_fov (bearing o) 90), (in_fov (bearing o) (-90));
  cbn [app mapM camera_offset bind]; eexists; (split; [reflexivity|]); (split; [repeat constructor; cbn; lia|]); intros Ht s Hs;
  (destruct t; [now destruct Ht| | | |]); cbn [type_num In] in Hs; lia.
Qed.
Definition quiet (g : genid) (o : object) : Prop := ~ (g = CAMERA /\ camera_unsupported o).
Lemma matching_ok g o : implemented g = true -> gt_only g = true -> quiet g o ->
  exists l, shards_for_matching g o = Ok l /\ NoDup l /\ forall s, In s l -> 0 <= s < num_shards g.
Proof.
  intros Hg Hgt Hq. destruct g; try discriminate Hgt.
  - unfold shards_for_matching. destruct (typ o); eexists; (split; [reflexivity|]); (split; [cbn; repeat constructor; cbn; lia|]); intros s Hs; cbn in Hs; unfold num_shards, type_max; lia.
  - destruct (typ o) eqn:Et.
    { unfold shards_for_matching. rewrite Et. exists []. split; [reflexivity|]. split; [constructor|]. intros s []. }
    all: assert (Ht : typ o <> TYPE_UNKNOWN) by congruence;
      assert (E : shards_for_matching CAMERA o = match camera_name o with
          | Some _ => do s <- shard CAMERA o; Ok [s]
          | None => mapM (fun c => do k <- camera_offset c; Ok (5 * (type_num (typ o) - 1) + k)) (cameras_by_fov (bearing o)) end)
        by (unfold shards_for_matching; rewrite Et; reflexivity);
      rewrite E; clear E; destruct (camera_name o) as [c|] eqn:En;
      [destruct (camera_shard o Ht) as [(i & l & E & Hn & _)|[[E N]|[E U]]];
        [rewrite E; cbn [bind]; eexists; (split; [reflexivity|]); (split; [repeat constructor; intros []|]); intros s [<-|[]];
           apply (proj1 (bucketed_names CAMERA (typ o) i l ltac:(auto) Ht Hn))
        |exfalso; pose proof (with_camera_spec (5 * (type_num (typ o) - 1)) c) as W; destruct (view_center c) as [[d n]|] eqn:Ev;
           [apply (N n); exists c, d; split; [now left|exact Ev]
           |apply Hq; split; [reflexivity|]; split; [exact Ht|]; exists c; split; [exact Ev|]; now left]
        |exfalso; apply Hq; now split]
      |destruct (fov_offsets o (typ o)) as (l & E & Nd & B); exists l; split; [exact E|]; split; [exact Nd|]; intros s Hs; exact (B Ht s Hs)].
Qed.

(** ** Assigning objects *)
Lemma push_length subs s i : List.length (push subs s i) = List.length subs.
Proof. unfold push. rewrite map_length, combine_length, seq_length. lia. Qed.
Lemma push_nth subs s i k : (k < List.length subs)%nat ->
  nth k (push subs s i) [] = nth k subs [] ++ (if Z.of_nat k =? s then [i] else []).
Proof.
  intros Hk. unfold push.
  set (f := fun ks : nat * list nat => if Z.of_nat (fst ks) =? s then snd ks ++ [i] else snd ks).
  rewrite (nth_map f _ _ (0%nat, [])) by (rewrite combine_length, seq_length; lia).
  rewrite combine_nth by (now rewrite seq_length). rewrite seq_nth by exact Hk. unfold f. cbn [fst snd plus].
  destruct (Z.of_nat k =? s); [reflexivity|now rewrite app_nil_r].
Qed.
Lemma push_all n i shards : (forall s, In s shards -> 0 <= s < n) -> NoDup shards -> forall subs,
  exists subs', foldM (fun subs s => if negb (0 <=? s) then Err CheckFailed else if negb (s <? n) then Err CheckFailed else Ok (push subs s i)) shards subs = Ok subs' /\
    List.length subs' = List.length subs /\
    forall k, (k < List.length subs)%nat -> nth k subs' [] = nth k subs [] ++ (if existsb (Z.eqb (Z.of_nat k)) shards then [i] else []).
Proof.
  induction shards as [|s shards IH]; intros Hb Hn subs; cbn [foldM].
  - exists subs. split; [reflexivity|]. split; [reflexivity|]. intros k Hk. cbn. now rewrite app_nil_r.
  - inversion Hn as [|a m N M]; subst. pose proof (Hb s (or_introl eq_refl)) as Hs.
    rewrite (proj2 (Z.leb_le _ _)) by lia. rewrite (proj2 (Z.ltb_lt _ _)) by lia. cbn [negb bind].
    destruct (IH (fun x Hx => Hb x (or_intror Hx)) M (push subs s i)) as (subs' & E & L & Hk). exists subs'.
    split; [exact E|]. rewrite push_length in L, Hk. split; [exact L|]. intros k Hlt. rewrite Hk by exact Hlt. rewrite push_nth by exact Hlt.
    rewrite <- app_assoc. f_equal. cbn [existsb]. destruct (Z.eqb_spec (Z.of_nat k) s) as [Es|Es]; cbn [orb app]; [|reflexivity].
    assert (Ex : existsb (Z.eqb (Z.of_nat k)) shards = false); [|now rewrite Ex].
    apply not_true_iff_false. intros Hx. apply existsb_exists in Hx. destruct Hx as (x & Hx & Ex). apply Z.eqb_eq in Ex. subst x. subst s. contradiction.
Qed.
Lemma assign_ok g d o i subs : implemented g = true -> quiet g o ->
  exists subs', assign g d subs (i, o) = Ok subs' /\ List.length subs' = List.length subs /\
    forall k, (k < List.length subs)%nat -> nth k subs' [] = nth k subs [] ++ (if member g d o (Z.of_nat k) then [i] else []).
Proof.
  intros Hg Hq. unfold assign, member. destruct (d && gt_only g) eqn:Ed.
  - apply andb_true_iff in Ed. destruct Ed as [_ Hgt]. destruct (matching_ok g o Hg Hgt Hq) as (l & E & Nd & B). rewrite E. cbn [bind].
    exact (push_all (num_shards g) i l B Nd subs).
  - assert (Hok : is_ok (shard g o) = true) by now apply shard_ok. destruct (shard g o) as [s|] eqn:Es; [|discriminate]. cbn [bind].
    pose proof (shard_bounds g o s Hg Es) as B. rewrite (proj2 (Z.ltb_lt _ _)) by lia. cbn [negb].
    destruct (Z.leb_spec 0 s) as [H|H].
    + exists (push subs s i). split; [reflexivity|]. split; [apply push_length|]. intros k Hk. now apply push_nth.
    + exists subs. split; [reflexivity|]. split; [reflexivity|]. intros k Hk. rewrite (proj2 (Z.eqb_neq _ _)) by lia. now rewrite app_nil_r.
Qed.
Definition members_from (objs : list object) (P : object -> bool) (k : nat) : list nat :=
  map fst (filter (fun io : nat * object => P (snd io)) (combine (seq k (List.length objs)) objs)).
Lemma assign_all g d objs : implemented g = true -> (forall o, In o objs -> quiet g o) -> forall k subs,
  exists subs', foldM (assign g d) (combine (seq k (List.length objs)) objs) subs = Ok subs' /\ List.length subs' = List.length subs /\
    forall s, (s < List.length subs)%nat -> nth s subs' [] = nth s subs [] ++ members_from objs (fun o => member g d o (Z.of_nat s)) k.
Proof.
  intros Hg. induction objs as [|o objs IH]; intros Hq k subs; cbn [List.length seq combine foldM].
  - exists subs. split; [reflexivity|]. split; [reflexivity|]. intros s Hs. cbn. now rewrite app_nil_r.
  - destruct (assign_ok g d o k subs Hg (Hq o (or_introl eq_refl))) as (s1 & E1 & L1 & N1). rewrite E1. cbn [bind].
    destruct (IH (fun x Hx => Hq x (or_intror Hx)) (S k) s1) as (s2 & E2 & L2 & N2). exists s2. split; [exact E2|]. split; [congruence|].
    intros s Hs. rewrite N2 by lia. rewrite N1 by exact Hs. rewrite <- app_assoc. f_equal. unfold members_from. cbn [List.length seq combine filter snd].
    destruct (member g d o (Z.of_nat s)); reflexivity.
Qed.
Lemma members_from_eq objs P : members_from objs P 0 = member_indices objs P.
Proof.
  unfold members_from, member_indices.
  assert (G : forall l k (pre : list object), List.length pre = k ->
    map fst (filter (fun io : nat * object => P (snd io)) (combine (seq k (List.length l)) l)) =
    filter (fun j => match nth_error (pre ++ l) j with Some o => P o | None => false end) (seq k (List.length l))).
  { induction l as [|o l IH]; intros k pre Hk; cbn [List.length seq combine filter map]; [reflexivity|].
    assert (En : nth_error (pre ++ o :: l) k = Some o) by (rewrite nth_error_app2 by lia; replace (k - List.length pre)%nat with 0%nat by lia; reflexivity).
    rewrite En. cbn [snd]. specialize (IH (S k) (pre ++ [o])). rewrite app_length in IH. cbn [List.length] in IH. specialize (IH ltac:(lia)).
    rewrite <- app_assoc in IH. cbn [app] in IH. destruct (P o); cbn [map fst]; now rewrite IH. }
  exact (G objs 0%nat [] eq_refl).
Qed.
Lemma filter_filter {A} (P R : A -> bool) l : filter P (filter R l) = filter (fun x => R x && P x) l.
Proof. induction l as [|a l IH]; cbn [filter]; [reflexivity|]. destruct (R a); cbn [filter andb]; [destruct (P a)|]; now rewrite IH. Qed.
Lemma select_members objs q P : select objs q (member_indices objs P) = member_indices objs (fun o => P o && Qle_bool q (score o)).
Proof. unfold select, member_indices. rewrite filter_filter. apply filter_ext. intros j. destruct (nth_error objs j); reflexivity. Qed.
Theorem build_value c objs is_gt d : (forall g, In g (generators c) -> implemented g = true) ->
  (forall o, In o objs -> ~ (In CAMERA (generators c) /\ camera_unsupported o)) ->
  build_subsets c objs is_gt d = Ok (expected_subsets c objs is_gt d).
Proof.
  intros Hg Hq. unfold build_subsets, expected_subsets.
  erewrite mapM_all_ok; [cbn [bind]; reflexivity|]. intros [i g] Hin. apply in_combine_r in Hin. specialize (Hg g Hin). cbn [fst snd].
  unfold generator_subsets. rewrite Hg. cbn [negb].
  assert (Hq' : forall o, In o objs -> quiet g o) by (intros o Ho [-> H]; apply (Hq o Ho); now split).
  destruct (assign_all g d objs Hg Hq' 0%nat (repeat [] (Z.to_nat (num_shards g)))) as (subs & E & L & N). rewrite E. cbn [bind]. f_equal.
  apply map_ext_in. intros s Hs. apply zrange_in in Hs. rewrite repeat_length in L, N.
  assert (En : nth (Z.to_nat s) subs [] = member_indices objs (fun o => member g d o s)).
  { rewrite N by lia. rewrite nth_repeat. cbn [app]. rewrite members_from_eq. now rewrite Z2Nat.id by lia. }
  rewrite En. f_equal. destruct is_gt; [reflexivity|]. apply map_ext. intros q. apply select_members.
Qed.
(** ** An object's own shard among those used for matching *)
Lemma velocity_own o s : shard VELOCITY o = Ok s -> 0 <= s -> member VELOCITY true o s = true.
Proof.
  intros E Hs. unfold member. cbn [gt_only andb]. destruct (typ o) eqn:Et.
  - cbn [shard] in E. rewrite Et in E. apply Ok_inj in E. lia.
  - assert (Ht : typ o <> TYPE_UNKNOWN) by congruence. destruct (speed_shard o Ht) as (i & l & Ei & Hn & _). rewrite E in Ei. apply Ok_inj in Ei. rewrite Et in Ei. cbn [type_num py_buckets List.length] in Ei.
    assert (Hi : (i < 5)%nat) by (apply (nth_error_Some (py_buckets VELOCITY)); congruence).
    unfold shards_for_matching. rewrite Et. apply existsb_exists. exists s. split; [|apply Z.eqb_refl]. apply in_map_iff. exists i. split; [cbn [type_num]; lia|apply in_seq; lia].
  - assert (Ht : typ o <> TYPE_UNKNOWN) by congruence. destruct (speed_shard o Ht) as (i & l & Ei & Hn & _). rewrite E in Ei. apply Ok_inj in Ei. rewrite Et in Ei. cbn [type_num py_buckets List.length] in Ei.
    assert (Hi : (i < 5)%nat) by (apply (nth_error_Some (py_buckets VELOCITY)); congruence).
    unfold shards_for_matching. rewrite Et. apply existsb_exists. exists s. split; [|apply Z.eqb_refl]. apply in_map_iff. exists i. split; [cbn [type_num]; lia|apply in_seq; lia].
  - assert (Ht : typ o <> TYPE_UNKNOWN) by congruence. destruct (speed_shard o Ht) as (i & l & Ei & Hn & _). rewrite E in Ei. apply Ok_inj in Ei. rewrite Et in Ei. cbn [type_num py_buckets List.length] in Ei.
    assert (Hi : (i < 5)%nat) by (apply (nth_error_Some (py_buckets VELOCITY)); congruence).
    unfold shards_for_matching. rewrite Et. apply existsb_exists. exists s. split; [|apply Z.eqb_refl]. apply in_map_iff. exists i. split; [cbn [type_num]; lia|apply in_seq; lia].
  - assert (Ht : typ o <> TYPE_UNKNOWN) by congruence. destruct (speed_shard o Ht) as (i & l & Ei & Hn & _). rewrite E in Ei. apply Ok_inj in Ei. rewrite Et in Ei. cbn [type_num py_buckets List.length] in Ei.
    assert (Hi : (i < 5)%nat) by (apply (nth_error_Some (py_buckets VELOCITY)); congruence).
    unfold shards_for_matching. rewrite Et. apply existsb_exists. exists s. split; [|apply Z.eqb_refl]. apply in_map_iff. exists i. split; [cbn [type_num]; lia|apply in_seq; lia].
Qed.
Lemma view_search c d n : view_center c = Some (d, n) -> In c search_order.
Proof. destruct c; cbn; intros H; try discriminate H; tauto. Qed.
Lemma camera_offset_inj c c' d n d' n' k : view_center c = Some (d, n) -> view_center c' = Some (d', n') -> camera_offset c = Ok k -> camera_offset c' = Ok k -> c = c'.
Proof. destruct c, c'; cbn; intros; congruence. Qed.
Lemma mapM_in_iff {A B} (f : A -> result B) l r y : mapM f l = Ok r -> (In y r <-> exists x, In x l /\ f x = Ok y).
Proof.
  revert r. induction l as [|a l IH]; intros r E; cbn [mapM] in E.
  - apply Ok_inj in E. subst r. split; [intros []|intros (x & [] & _)].
  - destruct (f a) as [b|] eqn:Ea; cbn [bind] in E; [|discriminate]. destruct (mapM f l) as [r'|] eqn:Er; cbn [bind] in E; [|discriminate].
    apply Ok_inj in E. subst r. specialize (IH r' eq_refl). cbn [In]. rewrite IH. split.
    + intros [<-|(x & Hx & E)]; [exists a; split; [now left|exact Ea]|exists x; split; [now right|exact E]].
    + intros (x & [<-|Hx] & E); [left; congruence|right; exists x; now split].
Qed.
Theorem camera_own o s c : typ o <> TYPE_UNKNOWN -> object_camera c o -> shard CAMERA o = Ok s -> 0 <= s ->
  (member CAMERA true o s = true <-> camera_name o <> None \/ sees c o).
Proof.
  intros Ht Hc E Hs.
  assert (Em : shards_for_matching CAMERA o = match camera_name o with
          | Some _ => do s <- shard CAMERA o; Ok [s]
          | None => mapM (fun c => do k <- camera_offset c; Ok (5 * (type_num (typ o) - 1) + k)) (cameras_by_fov (bearing o)) end)
    by (unfold shards_for_matching; destruct (typ o); [now destruct Ht| | | |]; reflexivity).
  unfold member. cbn [gt_only andb]. rewrite Em. clear Em. destruct (camera_name o) as [c0|] eqn:En.
  - rewrite E. cbn [bind existsb]. rewrite Z.eqb_refl. split; [|reflexivity]. intros _. left. discriminate.
  - destruct (fov_offsets o (typ o)) as (l & El & _ & _). rewrite El.
    destruct (camera_shard o Ht) as [(i & lab & Ei & Hn & Hb)|[[Ei N]|[Ei U]]]; [|rewrite E in Ei; apply Ok_inj in Ei; lia|congruence].
    destruct Hb as (c' & d & Hc' & Hv). pose proof (object_camera_unique _ _ _ Hc Hc') as <-.
    assert (Ek : exists k, camera_offset c = Ok k /\ s = 5 * (type_num (typ o) - 1) + k).
    { assert (Es : shard CAMERA o = with_camera (5 * (type_num (typ o) - 1)) c).
      { unfold shard. rewrite En. destruct Hc as [H|[[H1 H2]|(H1 & H2 & H3)]]; [congruence|rewrite H2; destruct (typ o); [now destruct Ht| | | |]; reflexivity|].
        pose proof (fov_first o) as F. destruct (cameras_by_fov (bearing o)) as [|c1 r]; [now apply F in H3|]. rewrite (first_seeing_unique _ _ _ H3 F).
        rewrite H2. destruct (typ o); [now destruct Ht| | | |]; reflexivity. }
      rewrite E in Es. unfold with_camera in Es. destruct (camera_offset c) as [k|]; [|discriminate]. cbn [bind] in Es. exists k. split; [reflexivity|].
      destruct (k <? 0); apply Ok_inj in Es; lia. }
    destruct Ek as (k & Ek & ->). split.
    + intros H. right. apply existsb_exists in H. destruct H as (x & Hx & Ex). apply Z.eqb_eq in Ex. subst x.
      apply (mapM_in_iff _ _ _ _ El) in Hx. destruct Hx as (c2 & Hc2 & E2). apply fov_in in Hc2. destruct Hc2 as [Hin Hsee].
      destruct (camera_offset c2) as [k2|] eqn:Ek2; [|discriminate]. cbn [bind] in E2. apply Ok_inj in E2.
      destruct (search_view c2 Hin) as (d2 & n2 & Ev2). rewrite (camera_offset_inj c c2 d lab d2 n2 k Hv Ev2 Ek); [exact Hsee|]. rewrite Ek2. f_equal. lia.
    + intros [H|H]; [now destruct H|]. apply existsb_exists. eexists. split; [|apply Z.eqb_refl]. apply (mapM_in_iff _ _ _ _ El). exists c. split.
      * apply fov_in. split; [now apply (view_search c d lab)|exact H].
      * rewrite Ek. reflexivity.
Qed.
