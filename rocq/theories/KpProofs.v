(** Proofs about keypoint tensors and grouped labels. *)
From Verif Require Import Base ResultLib ListLib KpModel KpSpec.
Open Scope list_scope.
Open Scope Z_scope.

(** Dicts. *)
Section Dict.
  Context {K A : Type} (eqb : K -> K -> bool).
  Hypothesis eqb_eq : forall a b, eqb a b = true <-> a = b.
  Lemma eqb_same k : eqb k k = true.
  Proof. apply eqb_eq. reflexivity. Qed.
  Lemma eqb_other a b : a <> b -> eqb a b = false.
  Proof. intros H. destruct (eqb a b) eqn:E; [apply eqb_eq in E; contradiction | reflexivity]. Qed.
  Lemma get_set k k' (v : A) d : dict_get eqb k (dict_set eqb k' v d) = if eqb k k' then Some v else dict_get eqb k d.
  Proof.
    induction d as [|[c w] d IH]; cbn [dict_set dict_get]; [reflexivity|].
    destruct (eqb k' c) eqn:E; cbn [dict_get].
    - apply eqb_eq in E. subst c. destruct (eqb k k'); reflexivity.
    - rewrite IH. destruct (eqb k c) eqn:E'; [|reflexivity].
      apply eqb_eq in E'. subst c. destruct (eqb k k') eqn:E''; [|reflexivity].
      apply eqb_eq in E''. subst k'. rewrite eqb_same in E. discriminate.
  Qed.
  Lemma set_keys k (v : A) d k' : In k' (map fst (dict_set eqb k v d)) <-> k' = k \/ In k' (map fst d).
  Proof.
    induction d as [|[c w] d IH]; cbn [dict_set map fst In]; [intuition|].
    destruct (eqb k c) eqn:E; cbn [map fst In].
    - apply eqb_eq in E. subst c. intuition.
    - rewrite IH. intuition.
  Qed.
  Lemma set_nodup k (v : A) d : NoDup (map fst d) -> NoDup (map fst (dict_set eqb k v d)).
  Proof.
    induction d as [|[c w] d IH]; cbn [dict_set map fst]; intros H; [constructor; [intros [] | constructor]|].
    inversion H as [|c' l Hc Hd]; subst. destruct (eqb k c) eqn:E; cbn [map fst]; constructor; auto.
    rewrite set_keys. intros [-> |Hi]; [rewrite eqb_same in E; discriminate | contradiction].
  Qed.
  Lemma in_get k (v : A) d : NoDup (map fst d) -> (In (k, v) d <-> dict_get eqb k d = Some v).
  Proof.
    induction d as [|[c w] d IH]; cbn [map fst dict_get In]; intros H; [split; [intros [] | discriminate]|].
    inversion H as [|c' l Hc Hd]; subst. specialize (IH Hd). destruct (eqb k c) eqn:E.
    - apply eqb_eq in E. subst c. split.
      + intros [Hx|Hx]; [congruence|]. exfalso. apply Hc. apply (in_map fst) in Hx. exact Hx.
      + intros Hx. left. congruence.
    - rewrite <- IH. split; [|tauto]. intros [Hx|Hx]; [|exact Hx].
      injection Hx as -> _. rewrite eqb_same in E. discriminate.
  Qed.
  Context {X : Type} (f : X -> K) (g : X -> A).
  Definition fill (l : list X) (d : list (K * A)) := fold_left (fun d x => dict_set eqb (f x) (g x) d) l d.
  Lemma fill_nodup l : forall d, NoDup (map fst d) -> NoDup (map fst (fill l d)).
  Proof. induction l as [|x l IH]; intros d H; cbn; [exact H|]. apply IH, set_nodup, H. Qed.
  Lemma fill_get k l d :
    dict_get eqb k (fill l d) =
    match find (fun x => eqb k (f x)) (rev l) with Some x => Some (g x) | None => dict_get eqb k d end.
  Proof.
    induction l as [|x l IH] using rev_ind; [reflexivity|].
    unfold fill in *. rewrite fold_left_app, rev_app_distr. cbn [fold_left rev app find].
    rewrite get_set, IH. destruct (eqb k (f x)); reflexivity.
  Qed.
End Dict.

Lemma opt_eqb_eq a b : opt_eqb a b = true <-> a = b.
Proof. destruct a, b; cbn; try (split; congruence). rewrite Z.eqb_eq. split; congruence. Qed.

(** The last element with a property. *)
Section Last.
  Context {A : Type} (P : A -> Prop) (p : A -> bool).
  Hypothesis Hp : forall x, p x = true <-> P x.
  Lemma find_rev_none l : find p (rev l) = None <-> none_with P l.
  Proof.
    unfold none_with. rewrite Forall_forall. split.
    - intros H x Hx HP. apply Hp in HP. rewrite (find_none _ _ H x) in HP; [discriminate|]. apply -> in_rev. exact Hx.
    - intros H. destruct (find p (rev l)) as [x|] eqn:E; [|reflexivity]. apply find_some in E.
      destruct E as [Hx Hx']. exfalso. apply (H x); [apply in_rev; exact Hx | apply Hp; exact Hx'].
  Qed.
  Lemma find_rev_some l x : find p (rev l) = Some x <-> last_with P l x.
  Proof.
    split.
    - induction l as [|y l IH] using rev_ind; [discriminate|].
      rewrite rev_app_distr. cbn [rev app find]. destruct (p y) eqn:E.
      + intros H. injection H as <-. exists l, []. split; [reflexivity|]. split; [apply Hp; exact E | constructor].
      + intros H. destruct (IH H) as (b & a & -> & Hx & Ha). exists b, (a ++ [y]).
        split; [rewrite <- app_assoc; reflexivity|]. split; [exact Hx|]. apply Forall_app. split; [exact Ha|].
        constructor; [|constructor]. intros Hy. apply Hp in Hy. congruence.
    - intros (b & a & -> & Hx & Ha). rewrite rev_app_distr. cbn [rev]. rewrite <- app_assoc.
      assert (Hn : find p (rev a) = None) by (apply find_rev_none; exact Ha).
      revert Hn. generalize (rev a). clear Ha. intros l Hn.
      induction l as [|y l IH]; cbn [app find] in *; [rewrite (proj2 (Hp x) Hx); reflexivity|].
      destruct (p y); [discriminate | exact (IH Hn)].
  Qed.
End Last.
Lemma last_in {A} (P : A -> Prop) l x : last_with P l x -> In x l /\ P x.
Proof. intros (b & a & -> & Hx & _). split; [apply in_elt | exact Hx]. Qed.
Lemma last_ext {A} (P Q : A -> Prop) l x : (forall y, P y <-> Q y) -> last_with P l x -> last_with Q l x.
Proof.
  intros H (b & a & -> & Hx & Ha). exists b, a. split; [reflexivity|]. split; [apply H; exact Hx|].
  rewrite Forall_forall in Ha. apply Forall_forall. intros y Hy Hq. exact (Ha y Hy (proj2 (H y) Hq)).
Qed.
Lemma find_filter {A} (p q : A -> bool) l : find p (filter q l) = find (fun x => q x && p x) l.
Proof. induction l as [|x l IH]; cbn; [reflexivity|]. destruct (q x); cbn; [|exact IH]. destruct (p x); [reflexivity | exact IH]. Qed.
Lemma rev_filter {A} (q : A -> bool) l : rev (filter q l) = filter q (rev l).
Proof.
  induction l as [|x l IH]; cbn; [reflexivity|]. rewrite filter_app. cbn. rewrite <- IH.
  destruct (q x); cbn; [reflexivity | rewrite app_nil_r; reflexivity].
Qed.

Section Keypoints.
  Context {V : Type}.
  Notation keypoint_proto := (keypoint_proto V).
  Lemma zeqb_type t (k : keypoint_proto) : Z.eqb t (kp_type k) = true <-> kp_type k = t.
  Proof. rewrite Z.eqb_eq. split; congruence. Qed.
  Lemma coordinates_get (ks : list keypoint_proto) t :
    dict_get Z.eqb t (keypoint_coordinates ks) =
    match find (fun k => Z.eqb t (kp_type k)) (rev ks) with Some k => Some (point_from_proto k) | None => None end.
  Proof. exact (fill_get Z.eqb Z.eqb_eq kp_type point_from_proto t ks []). Qed.

  Definition row_of (ks : list keypoint_proto) (default : V) (t : Z) : V * Z :=
    match find (fun k => Z.eqb t (kp_type k)) (rev ks) with
    | Some k => (kp_location k, if kp_occluded k then 1 else 2)
    | None => (default, 0)
    end.
  Lemma tensors_rows (ks : list keypoint_proto) default order : create_keypoints_tensors ks default order = map (row_of ks default) order.
  Proof.
    unfold create_keypoints_tensors, create_tensors_from_points. rewrite map_map. apply map_ext. intros t.
    rewrite coordinates_get. unfold row_of. destruct (find _ (rev ks)) as [k|]; reflexivity.
  Qed.
  Lemma row_of_spec (ks : list keypoint_proto) default t : keypoint_row ks default t (row_of ks default t).
  Proof.
    unfold row_of. destruct (find (fun k => Z.eqb t (kp_type k)) (rev ks)) as [k|] eqn:E.
    - right. exists k. split; [|split; reflexivity].
      apply (find_rev_some (fun k => kp_type k = t) _ (zeqb_type t)). exact E.
    - left. split; [|reflexivity]. apply (find_rev_none (fun k => kp_type k = t) _ (zeqb_type t)). exact E.
  Qed.
  Lemma tensors_spec (ks : list keypoint_proto) default order : Forall2 (keypoint_row ks default) order (create_keypoints_tensors ks default order).
  Proof.
    rewrite tensors_rows. induction order as [|t order IH]; cbn [map]; constructor; [apply row_of_spec | exact IH].
  Qed.

  (** Subsets of keypoints. *)
  Lemma combine_seq_split {A} (l : list A) : forall s before i x after,
    combine (seq s (length l)) l = before ++ (i, x) :: after ->
    i = (s + length before)%nat /\ l = map snd before ++ x :: map snd after.
  Proof.
    induction l as [|y l IH]; intros s before i x after H; cbn in H.
    - destruct before; discriminate.
    - destruct before as [|[j z] before]; cbn in H; injection H as H1 H2 H3.
      + subst i y. split; [cbn; lia|]. cbn. f_equal. rewrite <- H3.
        clear. generalize (S s) as s'. induction l as [|y l IH]; intros s'; cbn; [reflexivity|]. f_equal. apply IH.
      + subst j z. destruct (IH _ _ _ _ _ H3) as [-> ->]. split; [cbn; lia | reflexivity].
  Qed.
  Definition index_of (src : list Z) (t : Z) (i : nat) : Prop :=
    exists before after, src = before ++ t :: after /\ length before = i /\ ~ In t after.
  Lemma snd_eqb t (it : nat * Z) : Z.eqb t (snd it) = true <-> snd it = t.
  Proof. rewrite Z.eqb_eq. split; congruence. Qed.
  Lemma src_index_some src t : In t src -> exists i, dict_get Z.eqb t (src_index src) = Some i /\ index_of src t i.
  Proof.
    intros Ht. pose proof (fill_get Z.eqb Z.eqb_eq (fun it : nat * Z => snd it) fst t (combine (seq 0 (length src)) src) []) as Hg.
    change (fill Z.eqb (fun it : nat * Z => snd it) fst (combine (seq 0 (length src)) src) []) with (src_index src) in Hg.
    rewrite Hg. clear Hg. destruct (find (fun x => t =? snd x) (rev (combine (seq 0 (length src)) src))) as [[i u]|] eqn:E.
    - exists i. split; [reflexivity|].
      apply (find_rev_some (fun it => snd it = t) _ (snd_eqb t)) in E. destruct E as (b & a & He & Hu & Ha). cbn in Hu. subst u.
      destruct (combine_seq_split _ _ _ _ _ _ He) as [-> Hs]. exists (map snd b), (map snd a).
      split; [exact Hs|]. split; [rewrite map_length; reflexivity|].
      intros Hin. apply in_map_iff in Hin. destruct Hin as [y [Hy Hin]]. rewrite Forall_forall in Ha. exact (Ha y Hin Hy).
    - exfalso. apply (find_rev_none (fun it => snd it = t) _ (snd_eqb t)) in E. unfold none_with in E. rewrite Forall_forall in E.
      apply In_nth_error in Ht. destruct Ht as [i Hi].
      apply (E (i, t)); [|reflexivity].
      assert (Hc : forall (l : list Z) s i, nth_error l i = Some t -> In ((s + i)%nat, t) (combine (seq s (length l)) l)).
      { clear. induction l as [|y l IH]; intros s [|i] H; try discriminate; cbn in *.
        - left. f_equal; [lia | congruence].
        - right. replace (s + S i)%nat with (S s + i)%nat by lia. apply IH. exact H. }
      exact (Hc src 0%nat i Hi).
  Qed.
  Lemma index_of_nth {A} src t i (values : list A) : length values = length src -> index_of src t i ->
    exists v, nth_error values i = Some v /\ last_with (fun tv => fst tv = t) (combine src values) (t, v).
  Proof.
    intros Hl (b & a & -> & Hi & Hn). rewrite app_length in Hl. cbn in Hl.
    destruct (nth_error values i) as [v|] eqn:E; [|apply nth_error_None in E; lia].
    exists v. split; [reflexivity|]. apply nth_error_split in E. destruct E as (vb & va & -> & Hvb).
    exists (combine b vb), (combine a va). split; [|split; [reflexivity|]].
    - clear Hn Hl. subst i. revert b Hvb. induction vb as [|x vb IH]; intros [|y b] H; try discriminate; cbn; [reflexivity|].
      f_equal. apply IH. cbn in H. lia.
    - apply Forall_forall. intros [t' v'] Hin Heq. cbn in Heq. subst t'. apply Hn. exact (in_combine_l _ _ _ _ Hin).
  Qed.
  Definition usable (values_len : nat) (src dst : list Z) : Prop :=
    values_len = length src /\ incl dst src /\ dst <> [].
  Lemma subset_eq {A} (values : list A) src dst : usable (length values) src dst ->
    exists out, select_subset values src dst = Ok out /\
      Forall2 (fun t v => last_with (fun tv => fst tv = t) (combine src values) (t, v)) dst out.
  Proof.
    intros (Hl & Hi & Hn). unfold select_subset.
    rewrite (proj2 (Nat.eqb_eq _ _) Hl). cbn [negb].
    assert (Hf : forallb (fun t => existsb (Z.eqb t) src) dst = true).
    { apply forallb_forall. intros t Ht. apply existsb_exists. exists t. split; [exact (Hi t Ht) | apply Z.eqb_refl]. }
    rewrite Hf. cbn [negb]. destruct dst as [|t0 dst0] eqn:Ed; [contradiction|]. rewrite <- Ed in *. clear Ed Hn Hf t0 dst0.
    induction dst as [|t dst IH]; [exists []; split; [reflexivity | constructor]|].
    destruct IH as [out [Ho Hf]]; [intros x Hx; apply Hi; right; exact Hx|].
    destruct (src_index_some src t (Hi t (or_introl eq_refl))) as [i [Hg Hx]].
    destruct (index_of_nth src t i values Hl Hx) as [v [Hv Hlast]].
    exists (v :: out). split; [|constructor; assumption].
    cbn [mapM]. rewrite Hg, Hv. cbn [bind]. rewrite Ho. reflexivity.
  Qed.
  Lemma subset_refuses {A} (values : list A) src dst : ~ usable (length values) src dst ->
    select_subset values src dst = Err ValueError.
  Proof.
    intros H. unfold select_subset. destruct (Nat.eqb (length values) (length src)) eqn:E1; [|reflexivity]. cbn [negb].
    destruct (forallb (fun t => existsb (Z.eqb t) src) dst) eqn:E2; [|reflexivity]. cbn [negb].
    destruct dst as [|t dst]; [reflexivity|]. exfalso. apply H.
    split; [apply Nat.eqb_eq; exact E1|]. split; [|discriminate].
    intros x Hx. rewrite forallb_forall in E2. specialize (E2 x Hx). apply existsb_exists in E2.
    destruct E2 as [y [Hy He]]. apply Z.eqb_eq in He. subst y. exact Hy.
  Qed.
  Lemma subset_of_tensors (ks : list keypoint_proto) default src dst : incl dst src -> dst <> [] ->
    select_subset (create_keypoints_tensors ks default src) src dst = Ok (create_keypoints_tensors ks default dst).
  Proof.
    intros Hi Hn. rewrite !tensors_rows.
    destruct (subset_eq (map (row_of ks default) src) src dst) as [out [Ho Hf]].
    { split; [rewrite map_length; reflexivity|]. split; assumption. }
    rewrite Ho. f_equal. clear Ho Hi Hn. induction Hf as [|t v dst out Hv Hf IH]; [reflexivity|].
    cbn [map]. rewrite <- IH. f_equal. apply last_in in Hv. destruct Hv as [Hv _].
    clear Hf IH. induction src as [|s src IHs]; cbn in Hv; [destruct Hv|].
    destruct Hv as [Hv|Hv]; [congruence | exact (IHs Hv)].
  Qed.

  (** Poses. *)
  Definition kept (poses : list (pose V)) := with_keypoints poses.
  Definition rows_of default order (p : pose V) : list (V * Z) :=
    match pose_keypoints p with Some ks => create_keypoints_tensors ks default order | None => [] end.
  Definition boxes_of (ps : list (pose V)) : list box_tensor :=
    flat_map (fun p => match pose_box p with Some b => [create_laser_box_tensors b] | None => [] end) ps.
  Lemma pose_tensors_eq (poses : list (pose V)) default order :
    create_pose_estimation_tensors poses default order =
    (map (rows_of default order) (kept poses),
     match boxes_of (kept poses) with
     | [] => match kept poses with [] => Some [] | _ => None end
     | bs => Some bs
     end).
  Proof.
    unfold create_pose_estimation_tensors.
    assert (H : forall poses ks bs,
      fold_left (fun acc p =>
        let '(keypoints, boxes) := acc in
        match pose_keypoints p with
        | None => (keypoints, boxes)
        | Some ks => (keypoints ++ [create_keypoints_tensors ks default order],
                      match pose_box p with Some b => boxes ++ [create_laser_box_tensors b] | None => boxes end)
        end) poses (ks, bs)
      = (ks ++ map (rows_of default order) (kept poses), bs ++ boxes_of (kept poses))).
    { clear. induction poses as [|p poses IH]; intros ks bs; cbn [fold_left]; unfold kept, with_keypoints in *; cbn [filter map boxes_of flat_map].
      - rewrite !app_nil_r. reflexivity.
      - destruct (pose_keypoints p) as [k|] eqn:E; rewrite IH; [|reflexivity].
        cbn [map]. unfold rows_of at 2. rewrite E, <- app_assoc. cbn [app]. f_equal.
        unfold boxes_of. cbn [flat_map]. destruct (pose_box p); [rewrite <- app_assoc|]; reflexivity. }
    rewrite H. cbn [app]. destruct (boxes_of (kept poses)); [|reflexivity]. destruct (kept poses); reflexivity.
  Qed.
  Lemma kept_has (poses : list (pose V)) p : In p (kept poses) -> exists ks, pose_keypoints p = Some ks.
  Proof.
    intros H. apply filter_In in H. destruct H as [_ H]. destruct (pose_keypoints p) as [ks|]; [exists ks; reflexivity | discriminate].
  Qed.
  Lemma pose_keypoints_rows (poses : list (pose V)) default order :
    Forall2 (pose_rows default order) (with_keypoints poses) (fst (create_pose_estimation_tensors poses default order)).
  Proof.
    rewrite pose_tensors_eq. cbn [fst]. fold (kept poses).
    assert (H : forall p, In p (kept poses) -> exists ks, pose_keypoints p = Some ks) by (intros p; apply kept_has).
    induction (kept poses) as [|p ps IH]; cbn [map]; constructor; [|apply IH; intros q Hq; apply H; right; exact Hq].
    destruct (H p (or_introl eq_refl)) as [ks Hks]. exists ks. split; [exact Hks|]. unfold rows_of. rewrite Hks. apply tensors_spec.
  Qed.
  Lemma boxes_all (ps : list (pose V)) : Forall has_box ps -> Forall2 box_row ps (boxes_of ps).
  Proof.
    induction 1 as [|p ps Hp H IH]; cbn; [constructor|].
    unfold has_box in Hp. destruct (pose_box p) as [b|] eqn:E; [|contradiction].
    cbn [app]. constructor; [|exact IH]. exists b. split; [exact E|]. repeat split; reflexivity.
  Qed.
  Lemma boxes_none (ps : list (pose V)) : Forall (fun p => ~ has_box p) ps -> boxes_of ps = [].
  Proof.
    induction 1 as [|p ps Hp H IH]; cbn; [reflexivity|].
    unfold has_box in Hp. destruct (pose_box p) as [b|] eqn:E; [exfalso; apply Hp; discriminate | exact IH].
  Qed.
  Lemma boxes_length (ps : list (pose V)) :
    (length (boxes_of ps) <= length ps)%nat /\ (length (boxes_of ps) = length ps -> Forall has_box ps).
  Proof.
    induction ps as [|p ps [IH1 IH2]]; cbn [length boxes_of flat_map]; [split; [lia | constructor]|].
    fold (boxes_of ps). destruct (pose_box p) as [b|] eqn:E; cbn [app length].
    - split; [lia|]. intros H. constructor; [unfold has_box; rewrite E; discriminate | apply IH2; lia].
    - split; [lia | lia].
  Qed.
  Lemma pose_boxes_rows (poses : list (pose V)) default order :
    (Forall has_box (with_keypoints poses) -> exists bs,
       snd (create_pose_estimation_tensors poses default order) = Some bs /\ Forall2 box_row (with_keypoints poses) bs) /\
    (with_keypoints poses <> [] -> Forall (fun p => ~ has_box p) (with_keypoints poses) ->
       snd (create_pose_estimation_tensors poses default order) = None) /\
    (~ Forall has_box (with_keypoints poses) -> ~ Forall (fun p => ~ has_box p) (with_keypoints poses) ->
       exists bs, snd (create_pose_estimation_tensors poses default order) = Some bs /\
         (length bs < length (fst (create_pose_estimation_tensors poses default order)))%nat).
  Proof.
    rewrite pose_tensors_eq. cbn [fst snd]. fold (kept poses). split; [|split].
    - intros H. pose proof (boxes_all _ H) as Hb. destruct (boxes_of (kept poses)) as [|b bs] eqn:E.
      + inversion Hb as [Hk|]. exists []. split; [reflexivity | constructor].
      + exists (b :: bs). split; [reflexivity | exact Hb].
    - intros Hn H. rewrite (boxes_none _ H). destruct (kept poses); [contradiction | reflexivity].
    - intros H1 H2. destruct (boxes_of (kept poses)) as [|b bs] eqn:E.
      + exfalso. apply H2. clear -E. induction (kept poses) as [|p ps IH]; constructor.
        * intros Hb. unfold has_box in Hb. cbn in E. destruct (pose_box p); [discriminate | contradiction].
        * apply IH. cbn in E. apply app_eq_nil in E. exact (proj2 E).
      + exists (b :: bs). split; [reflexivity|]. rewrite map_length.
        pose proof (boxes_length (kept poses)) as [Hle Heq]. rewrite E in Hle, Heq.
        assert (length (b :: bs) <> length (kept poses)) by (intros H; exact (H1 (Heq H))). lia.
  Qed.

  (** Labels by object. *)
  Lemma flat_cameras (f : frame V) :
    index_camera_labels f = fold_left (fun d nl => add_camera_label (fst nl) d (snd nl)) (all_camera_labels f) [].
  Proof.
    unfold index_camera_labels, all_camera_labels. generalize (@nil (option Z * list (Z * camera_label V))).
    induction (camera_labels f) as [|[n ls] cs IH]; intros d; cbn [fold_left flat_map]; [reflexivity|].
    rewrite fold_left_app, <- IH. f_equal. cbn [fst snd]. clear. revert d.
    induction ls as [|l ls IH]; intros d; cbn; [reflexivity|]. apply IH.
  Qed.
  Definition assoc_is (k : option Z) (nl : Z * camera_label V) : bool := opt_eqb k (c_association (snd nl)).
  Definition by_camera (l : list (Z * camera_label V)) : list (Z * camera_label V) := fill Z.eqb fst snd l [].
  Lemma cameras_get k L :
    dict_get opt_eqb k (fold_left (fun d nl => add_camera_label (fst nl) d (snd nl)) L []) =
    match filter (assoc_is k) L with [] => None | l => Some (by_camera l) end.
  Proof.
    induction L as [|x L IH] using rev_ind; [reflexivity|].
    rewrite fold_left_app, filter_app. cbn [fold_left filter]. unfold add_camera_label at 1.
    rewrite (get_set opt_eqb opt_eqb_eq). unfold assoc_is at 2.
    destruct (opt_eqb k (c_association (snd x))) eqn:E.
    - apply opt_eqb_eq in E. rewrite <- E, IH.
      assert (Hs : forall l, Some (dict_set Z.eqb (fst x) (snd x) (by_camera l)) = Some (by_camera (l ++ [x])))
        by (intros l; unfold by_camera, fill; rewrite fold_left_app; reflexivity).
      destruct (filter (assoc_is k) L) as [|y l]; [exact (Hs [])|]. rewrite Hs. reflexivity.
    - rewrite app_nil_r. exact IH.
  Qed.
  Lemma name_assoc id name (nl : Z * camera_label V) :
    assoc_is (Some id) nl && Z.eqb name (fst nl) = true <-> fst nl = name /\ c_association (snd nl) = Some id.
  Proof.
    rewrite andb_true_iff. unfold assoc_is. rewrite opt_eqb_eq, Z.eqb_eq. split; intros [H1 H2]; split; congruence.
  Qed.
  Lemma by_camera_spec id L name l :
    In (name, l) (by_camera (filter (assoc_is (Some id)) L)) <->
    last_with (fun nl => fst nl = name /\ c_association (snd nl) = Some id) L (name, l).
  Proof.
    unfold by_camera. rewrite (in_get Z.eqb Z.eqb_eq) by (apply fill_nodup; [exact Z.eqb_eq | constructor]).
    rewrite (fill_get Z.eqb Z.eqb_eq). rewrite rev_filter, find_filter. cbn [dict_get].
    rewrite <- (find_rev_some _ _ (name_assoc id name) L (name, l)).
    destruct (find (fun x => assoc_is (Some id) x && (name =? fst x)) (rev L)) as [[n' l']|] eqn:E; [|split; discriminate].
    apply find_some in E. destruct E as [_ E]. apply name_assoc in E. cbn in E. destruct E as [-> _]. cbn [snd]. split; congruence.
  Qed.
  Lemma camera_entry (f : frame V) id :
    match dict_get opt_eqb (Some id) (index_camera_labels f) with
    | None => none_with (fun nl => c_association (snd nl) = Some id) (all_camera_labels f)
    | Some m => NoDup (map fst m) /\ m <> [] /\
        forall name l, In (name, l) m <->
          last_with (fun nl => fst nl = name /\ c_association (snd nl) = Some id) (all_camera_labels f) (name, l)
    end.
  Proof.
    rewrite flat_cameras, cameras_get. destruct (filter (assoc_is (Some id)) (all_camera_labels f)) as [|x l] eqn:E.
    - apply Forall_forall. intros nl Hin Ha.
      assert (In nl (filter (assoc_is (Some id)) (all_camera_labels f)))
        by (apply filter_In; split; [exact Hin | unfold assoc_is; apply opt_eqb_eq; congruence]).
      rewrite E in *. contradiction.
    - rewrite <- E. split; [apply fill_nodup; [exact Z.eqb_eq | constructor]|]. split; [|intros name cl; apply by_camera_spec].
      intros Hm. rewrite E in Hm. unfold by_camera, fill in Hm. cbn [fold_left dict_set] in Hm.
      assert (Hi : forall (ls d : list (Z * camera_label V)), d <> [] -> fold_left (fun d x => dict_set Z.eqb (fst x) (snd x) d) ls d <> []).
      { clear. induction ls as [|y ls IH]; intros d Hd; cbn; [exact Hd|]. apply IH. destruct d as [|[a b] d]; [contradiction|]. cbn.
        destruct (fst y =? a); discriminate. }
      apply (Hi l [(fst x, snd x)]); [discriminate | exact Hm].
  Qed.
  Lemma zeqb_id id (l : laser_label V) : Z.eqb id (l_id l) = true <-> l_id l = id.
  Proof. rewrite Z.eqb_eq. split; congruence. Qed.
  Lemma laser_index_nodup (f : frame V) : NoDup (map fst (index_laser_labels f)).
  Proof. apply (fill_nodup Z.eqb Z.eqb_eq l_id pose_of_label). constructor. Qed.
  Lemma laser_index (f : frame V) id p : In (id, p) (index_laser_labels f) <->
    exists l, last_with (fun l => l_id l = id) (laser_labels f) l /\ p = pose_of_label l.
  Proof.
    rewrite (in_get Z.eqb Z.eqb_eq) by apply laser_index_nodup.
    pose proof (fill_get Z.eqb Z.eqb_eq l_id pose_of_label id (laser_labels f) []) as Hg.
    change (fill Z.eqb l_id pose_of_label (laser_labels f) []) with (index_laser_labels f) in Hg. rewrite Hg. cbn [dict_get].
    split.
    - destruct (find _ _) as [l|] eqn:E; [|discriminate]. intros H. injection H as <-. exists l. split; [|reflexivity].
      apply (find_rev_some _ _ (zeqb_id id)). exact E.
    - intros (l & Hl & ->). apply (find_rev_some _ _ (zeqb_id id)) in Hl. rewrite Hl. reflexivity.
  Qed.
  Lemma group_spec (f : frame V) :
    NoDup (map fst (group_object_labels f)) /\
    (forall id, In id (map fst (group_object_labels f)) <-> exists l, In l (laser_labels f) /\ l_id l = id) /\
    (forall id o, In (id, o) (group_object_labels f) -> object_entry f id o).
  Proof.
    set (entry := fun il : Z * pose V => {| laser := snd il; camera := dict_get opt_eqb (Some (fst il)) (index_camera_labels f) |}).
    assert (Hnd : NoDup (map fst (group_object_labels f))) by (apply (fill_nodup Z.eqb Z.eqb_eq fst entry); constructor).
    assert (Hget : forall id o, In (id, o) (group_object_labels f) <-> exists p, In (id, p) (index_laser_labels f) /\ o = entry (id, p)).
    { intros id o. rewrite (in_get Z.eqb Z.eqb_eq) by exact Hnd.
      pose proof (fill_get Z.eqb Z.eqb_eq fst entry id (index_laser_labels f) []) as Hg.
      change (fill Z.eqb fst entry (index_laser_labels f) []) with (group_object_labels f) in Hg. rewrite Hg. cbn [dict_get].
      assert (Hz : forall il : Z * pose V, Z.eqb id (fst il) = true <-> fst il = id) by (intros il; rewrite Z.eqb_eq; split; congruence).
      split.
      - destruct (find _ _) as [[i p]|] eqn:E; [|discriminate]. intros H. injection H as <-.
        apply find_some in E. destruct E as [Hin Hi]. apply Hz in Hi. cbn in Hi. subst i. exists p.
        split; [apply in_rev; exact Hin | reflexivity].
      - intros (p & Hin & ->). destruct (find (fun x => id =? fst x) (rev (index_laser_labels f))) as [[i q]|] eqn:E.
        + apply find_some in E. destruct E as [Hin' Hi]. apply Hz in Hi. cbn in Hi. subst i. apply in_rev in Hin'.
          apply (in_get Z.eqb Z.eqb_eq) in Hin, Hin'; [|apply laser_index_nodup|apply laser_index_nodup]. congruence.
        + exfalso. pose proof (find_none _ _ E (id, p)) as Hx. cbn [fst] in Hx. rewrite Z.eqb_refl in Hx.
          assert (true = false) by (apply Hx; apply -> in_rev; exact Hin). discriminate. }
    split; [exact Hnd|]. split.
    - intros id. rewrite in_map_iff. split.
      + intros [[i o] [Hi Hin]]. cbn in Hi. subst i. apply Hget in Hin. destruct Hin as (p & Hin & _).
        apply laser_index in Hin. destruct Hin as (l & Hl & _). exists l. exact (last_in _ _ _ Hl).
      + intros (l & Hl & Hid).
        destruct (find (fun l => id =? l_id l) (rev (laser_labels f))) as [l'|] eqn:E.
        * apply (find_rev_some _ _ (zeqb_id id)) in E. exists (id, entry (id, pose_of_label l')). split; [reflexivity|].
          apply Hget. exists (pose_of_label l'). split; [|reflexivity]. apply laser_index. exists l'. split; [exact E | reflexivity].
        * apply (find_rev_none _ _ (zeqb_id id)) in E. unfold none_with in E. rewrite Forall_forall in E. exfalso. exact (E l Hl Hid).
    - intros id o Hin. apply Hget in Hin. destruct Hin as (p & Hin & ->). apply laser_index in Hin. destruct Hin as (l & Hl & ->).
      split; [exists l; split; [exact Hl | reflexivity]|]. exact (camera_entry f id).
  Qed.
End Keypoints.
