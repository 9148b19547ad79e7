From Coq Require Import String Lqa.
From Verif Require Import Base ResultLib ListLib CutoffModel CutoffProofs BreakdownModel BreakdownSpec.
Open Scope Z_scope.

(** ** Shards and buckets *)
Ltac qcase t H := destruct t eqn:H; [apply qlt_iff in H|apply qlt_false in H].
Definition has_bucket (g : genid) (o : object) (bucket : string -> Prop) : Prop :=
  exists i label, shard g o = Ok (Z.of_nat i + Z.of_nat (length (py_buckets g)) * (type_num (typ o) - 1)) /\
    nth_error (py_buckets g) i = Some label /\ bucket label.
Lemma off_nonneg k t : 0 <= k -> t <> TYPE_UNKNOWN -> (k * (type_num t - 1) <? 0) = false.
Proof. intros Hk Ht. apply Z.ltb_ge. destruct t; cbn [type_num]; try lia. now destruct Ht. Qed.
Lemma range_shard o : typ o <> TYPE_UNKNOWN -> has_bucket RANGE o (range_bucket o).
Proof.
  intros Ht. unfold has_bucket, shard. cbv zeta.
  assert (E : (sq (cx o) + sq (cy o) + sq (cz o) == sqnorm3 o)%Q) by (unfold sq, sqnorm3; ring).
  set (r := (sq (cx o) + sq (cy o) + sq (cz o))%Q) in *.
  assert (G : forall off, exists i label, (if Qlt_bool r (sq 30) then Ok (0 + off) else if Qlt_bool r (sq 50) then Ok (1 + off) else Ok (2 + off)) = Ok (Z.of_nat i + off) /\
    nth_error (py_buckets RANGE) i = Some label /\ range_bucket o label).
  { intros off. unfold range_bucket. qcase (Qlt_bool r (sq 30)) H1; [|qcase (Qlt_bool r (sq 50)) H2]; unfold sq in H1; try (unfold sq in H2).
    - exists 0%nat. eexists. split; [reflexivity|]. split; [reflexivity|]. left. split; [reflexivity|]. lra.
    - exists 1%nat. eexists. split; [reflexivity|]. split; [reflexivity|]. right. left. split; [reflexivity|]. lra.
    - exists 2%nat. eexists. split; [reflexivity|]. split; [reflexivity|]. right. right. split; [reflexivity|]. lra. }
  destruct (typ o) eqn:Et; [now destruct Ht| | | |]; apply G.
Qed.
Lemma size_shard o : typ o <> TYPE_UNKNOWN -> has_bucket SIZE o (size_bucket o).
Proof.
  intros Ht. unfold has_bucket, shard. cbv zeta. set (z := qmax2 (qmax2 (len o) (wid o)) (hei o)).
  assert (E : (z < 7 <-> len o < 7 /\ wid o < 7 /\ hei o < 7)%Q).
  { unfold z, qmax2. destruct (Qlt_bool (len o) (wid o)) eqn:A; [apply qlt_iff in A|apply qlt_false in A];
    match goal with |- context [Qlt_bool ?a ?b] => destruct (Qlt_bool a b) eqn:B; [apply qlt_iff in B|apply qlt_false in B] end; split; intros; repeat split; lra. }
  assert (G : forall off, exists i label, (if Qlt_bool z 7 then Ok (0 + off) else Ok (1 + off)) = Ok (Z.of_nat i + off) /\
    nth_error (py_buckets SIZE) i = Some label /\ size_bucket o label).
  { intros off. unfold size_bucket. qcase (Qlt_bool z 7) H1.
    - exists 0%nat. eexists. split; [reflexivity|]. split; [reflexivity|]. left. split; [reflexivity|]. now apply E.
    - exists 1%nat. eexists. split; [reflexivity|]. split; [reflexivity|]. right. split; [reflexivity|].
      destruct (Qlt_le_dec (len o) 7); [|tauto]. destruct (Qlt_le_dec (wid o) 7); [|tauto]. destruct (Qlt_le_dec (hei o) 7); [|tauto].
      exfalso. apply (Qlt_not_le z 7); [apply E; tauto|exact H1]. }
  destruct (typ o) eqn:Et; [now destruct Ht| | | |]; apply G.
Qed.
Lemma speed_shard o : typ o <> TYPE_UNKNOWN -> has_bucket VELOCITY o (speed_bucket o).
Proof.
  intros Ht. unfold has_bucket, shard. cbv zeta.
  set (r := (sq (fst _) + sq (snd _))%Q).
  assert (E : (r == sqspeed o)%Q) by (unfold r, sq, sqspeed; destruct (speed o) as [[a b]|]; cbn [fst snd]; ring).
  clearbody r.
  assert (G : forall off, exists i label, (if Qlt_bool r (sq k_stationary) then Ok (0 + off) else if Qlt_bool r (sq 1) then Ok (1 + off)
      else if Qlt_bool r (sq 3) then Ok (2 + off) else if Qlt_bool r (sq 10) then Ok (3 + off) else Ok (4 + off)) = Ok (Z.of_nat i + off) /\
    nth_error (py_buckets VELOCITY) i = Some label /\ speed_bucket o label).
  { intros off. unfold speed_bucket. cbv zeta. fold (sq k_stationary). set (k := sq k_stationary).
    qcase (Qlt_bool r k) H1; [|qcase (Qlt_bool r (sq 1)) H2; [|qcase (Qlt_bool r (sq 3)) H3; [|qcase (Qlt_bool r (sq 10)) H4]]];
      try (unfold sq in H2); try (unfold sq in H3); try (unfold sq in H4).
    - exists 0%nat. eexists. split; [reflexivity|]. split; [reflexivity|]. left. split; [reflexivity|]. lra.
    - exists 1%nat. eexists. split; [reflexivity|]. split; [reflexivity|]. right. left. split; [reflexivity|]. lra.
    - exists 2%nat. eexists. split; [reflexivity|]. split; [reflexivity|]. do 2 right. left. split; [reflexivity|]. lra.
    - exists 3%nat. eexists. split; [reflexivity|]. split; [reflexivity|]. do 3 right. left. split; [reflexivity|]. lra.
    - exists 4%nat. eexists. split; [reflexivity|]. split; [reflexivity|]. do 4 right. split; [reflexivity|]. lra. }
  destruct (typ o) eqn:Et; [now destruct Ht| | | |]; apply G.
Qed.
(** Cameras. *)
Lemma camera_offset_spec c : match view_center c with
  | Some (_, n) => exists i, camera_offset c = Ok (Z.of_nat i) /\ nth_error (py_buckets CAMERA) i = Some n
  | None => camera_offset c = Err CheckFailed
  end.
Proof. destruct c; cbn; try reflexivity; [exists 0%nat|exists 1%nat|exists 2%nat|exists 3%nat|exists 4%nat]; split; reflexivity. Qed.
Lemma in_fov_iff c o d n : view_center c = Some (d, n) -> (in_fov (bearing o) d = true <-> sees c o).
Proof.
  intros E. unfold in_fov, sees. rewrite andb_true_iff, !qlt_iff. split.
  - intros H. exists d, n. now split.
  - intros (d' & n' & E' & H). rewrite E in E'. injection E' as <- <-. exact H.
Qed.
Lemma fov_eq o : cameras_by_fov (bearing o) =
  filter (fun c => match view_center c with Some (d, _) => in_fov (bearing o) d | None => false end) search_order.
Proof.
  unfold cameras_by_fov, search_order. cbn [filter view_center].
  destruct (in_fov (bearing o) 0), (in_fov (bearing o) 45), (in_fov (bearing o) (-45)), (in_fov (bearing o) 90), (in_fov (bearing o) (-90)); reflexivity.
Qed.
Lemma fov_in o c : In c (cameras_by_fov (bearing o)) <-> In c search_order /\ sees c o.
Proof.
  rewrite fov_eq, filter_In. split; intros [A B]; (split; [exact A|]).
  - destruct (view_center c) as [[d n]|] eqn:E; [|discriminate]. now apply (in_fov_iff c o d n E).
  - destruct B as (d & n & E & H). rewrite E. apply (in_fov_iff c o d n E). exists d, n. now split.
Qed.
Lemma filter_first {A} (P : A -> bool) l : match filter P l with
  | [] => forall x, In x l -> P x = false
  | c :: _ => exists l1 l2, l = l1 ++ c :: l2 /\ P c = true /\ forall x, In x l1 -> P x = false
  end.
Proof.
  induction l as [|a l IH]; cbn [filter]; [intros x []|]. destruct (P a) eqn:E.
  - exists [], l. split; [reflexivity|]. split; [exact E|]. intros x [].
  - destruct (filter P l) as [|c r].
    + intros x [<-|Hx]; [exact E|now apply IH].
    + destruct IH as (l1 & l2 & -> & B & C). exists (a :: l1), l2. split; [reflexivity|]. split; [exact B|]. intros x [<-|Hx]; [exact E|now apply C].
Qed.
Lemma search_view c : In c search_order -> exists d n, view_center c = Some (d, n).
Proof. intros H. repeat destruct H as [<-|H]; try (eexists; eexists; reflexivity). destruct H. Qed.
Lemma fov_first o : match cameras_by_fov (bearing o) with
  | [] => forall c, ~ first_seeing c o
  | c :: _ => first_seeing c o
  end.
Proof.
  pose proof (filter_first (fun c => match view_center c with Some (d, _) => in_fov (bearing o) d | None => false end) search_order) as H.
  rewrite fov_eq. destruct (filter _ search_order) as [|c r].
  - intros c (l1 & l2 & E & (d & n & Ev & Hd) & _). assert (Hin : In c search_order) by (rewrite E; apply in_or_app; right; now left).
    specialize (H c Hin). rewrite Ev in H. apply not_true_iff_false in H. apply H. apply (in_fov_iff c o d n Ev). exists d, n. now split.
  - destruct H as (l1 & l2 & E & B & C). exists l1, l2. split; [exact E|].
    assert (Hs : forall x, In x search_order -> ((match view_center x with Some (d, _) => in_fov (bearing o) d | None => false end) = true <-> sees x o)).
    { intros x Hx. destruct (search_view x Hx) as (d & n & Ev). rewrite Ev. now apply (in_fov_iff x o d n). }
    split.
    + apply Hs; [rewrite E; apply in_or_app; right; now left|exact B].
    + intros c' Hc' Hsee. apply Hs in Hsee; [|rewrite E; apply in_or_app; now left]. rewrite C in Hsee by exact Hc'. discriminate.
Qed.
Definition with_camera (off : Z) (c : camera) : result Z := do k <- camera_offset c; if k <? 0 then Ok (-1) else Ok (off + k).
Lemma with_camera_spec off c : match view_center c with
  | Some (_, n) => exists i, with_camera off c = Ok (Z.of_nat i + off) /\ nth_error (py_buckets CAMERA) i = Some n
  | None => with_camera off c = Err CheckFailed
  end.
Proof.
  pose proof (camera_offset_spec c) as H. unfold with_camera. destruct (view_center c) as [[d n]|].
  - destruct H as (i & E & L). exists i. rewrite E. cbn [bind]. rewrite (proj2 (Z.ltb_ge _ _)) by lia. split; [f_equal; lia|exact L].
  - now rewrite H.
Qed.
Lemma first_seeing_unique c c' o : first_seeing c o -> first_seeing c' o -> c = c'.
Proof.
  intros (l1 & l2 & E & S & N) (l1' & l2' & E' & S' & N').
  assert (G : forall l l1 l1' l2 l2', l = l1 ++ c :: l2 -> l = l1' ++ c' :: l2' -> (forall x, In x l1 -> ~ sees x o) -> (forall x, In x l1' -> ~ sees x o) -> c = c').
  { clear - S S'. induction l as [|a l IH]; intros [|b l1] [|b' l1'] l2 l2' E E' N N'; try discriminate; cbn [app] in E, E'.
    - congruence.
    - exfalso. apply (N' c); [left; congruence|exact S].
    - exfalso. apply (N c'); [left; congruence|exact S'].
    - apply (IH l1 l1' l2 l2'); [congruence|congruence|intros x Hx; apply N; now right|intros x Hx; apply N'; now right]. }
  exact (G _ _ _ _ _ E E' N N').
Qed.
Lemma object_camera_unique c c' o : object_camera c o -> object_camera c' o -> c = c'.
Proof.
  intros [H|[[H1 H2]|(H1 & H2 & H3)]] [G|[[G1 G2]|(G1 & G2 & G3)]]; try congruence. eapply first_seeing_unique; eassumption.
Qed.
Lemma camera_shard o : typ o <> TYPE_UNKNOWN ->
  (has_bucket CAMERA o (camera_bucket o)) \/ (shard CAMERA o = Ok (-1) /\ forall b, ~ camera_bucket o b) \/
  (shard CAMERA o = Err CheckFailed /\ camera_unsupported o).
Proof.
  intros Ht.
  assert (Ec : shard CAMERA o = match camera_name o with Some c => with_camera (5 * (type_num (typ o) - 1)) c | None =>
     match most_visible o with Some (Some c) => with_camera (5 * (type_num (typ o) - 1)) c | Some None => Ok (-1)
     | None => match cameras_by_fov (bearing o) with [] => Ok (-1) | c :: _ => with_camera (5 * (type_num (typ o) - 1)) c end end end).
  { unfold shard. destruct (typ o); [now destruct Ht| | | |]; reflexivity. }
  unfold has_bucket. rewrite Ec. clear Ec.
  assert (G : forall c, object_camera c o ->
     (exists i label, with_camera (5 * (type_num (typ o) - 1)) c = Ok (Z.of_nat i + Z.of_nat (List.length (py_buckets CAMERA)) * (type_num (typ o) - 1)) /\
        nth_error (py_buckets CAMERA) i = Some label /\ camera_bucket o label) \/
     (view_center c = None /\ with_camera (5 * (type_num (typ o) - 1)) c = Err CheckFailed)).
  { intros c Hc. pose proof (with_camera_spec (5 * (type_num (typ o) - 1)) c) as W. destruct (view_center c) as [[d n]|] eqn:Ev.
    - left. destruct W as (i & E & L). exists i, n. split; [exact E|]. split; [exact L|]. exists c, d. now split.
    - right. now split. }
  destruct (camera_name o) as [c|] eqn:En.
  - destruct (G c) as [H|[H1 H2]]; [now left|left; exact H|]. right. right. split; [exact H2|]. split; [exact Ht|]. exists c. split; [exact H1|]. now left.
  - destruct (most_visible o) as [[c|]|] eqn:Em.
    + destruct (G c) as [H|[H1 H2]]; [right; left; now split|left; exact H|]. right. right. split; [exact H2|]. split; [exact Ht|]. exists c. split; [exact H1|]. right. now split.
    + right. left. split; [reflexivity|]. intros b (c & d & [H|[[_ H]|(_ & H & _)]] & _); congruence.
    + pose proof (fov_first o) as F. destruct (cameras_by_fov (bearing o)) as [|c r] eqn:Ef.
      * right. left. split; [reflexivity|]. intros b (c & d & [H|[[_ H]|(_ & _ & H)]] & _); [congruence|congruence|]. now apply (F c).
      * assert (Hc : object_camera c o) by (right; right; repeat split; assumption).
        destruct (G c Hc) as [H|[H1 H2]]; [left; exact H|].
        exfalso. assert (Hin : In c (cameras_by_fov (bearing o))) by (rewrite Ef; now left). apply fov_in in Hin.
        destruct (search_view c (proj1 Hin)) as (d & n & Ev). congruence.
Qed.
Lemma camera_shard_err o : typ o <> TYPE_UNKNOWN -> forall c, view_center c = None ->
  (camera_name o = Some c \/ (camera_name o = None /\ most_visible o = Some (Some c))) -> shard CAMERA o = Err CheckFailed.
Proof.
  intros Ht c Hv Hc. pose proof (with_camera_spec (5 * (type_num (typ o) - 1)) c) as W. rewrite Hv in W. unfold with_camera in W.
  unfold shard. destruct (typ o); [now destruct Ht| | | |]; destruct Hc as [H|[H1 H2]]; rewrite ?H, ?H1, ?H2; exact W.
Qed.
(** Buckets are unique. *)
Lemma range_unique o b b' : range_bucket o b -> range_bucket o b' -> b = b'.
Proof. unfold range_bucket. intros [[-> H]|[[-> H]|[-> H]]] [[-> G]|[[-> G]|[-> G]]]; try reflexivity; exfalso; lra. Qed.
Lemma size_unique o b b' : size_bucket o b -> size_bucket o b' -> b = b'.
Proof. unfold size_bucket. intros [[-> H]|[-> H]] [[-> G]|[-> G]]; try reflexivity; exfalso; lra. Qed.
Lemma speed_unique o b b' : speed_bucket o b -> speed_bucket o b' -> b = b'.
Proof.
  unfold speed_bucket. cbv zeta. assert (Hk : (0 < k_stationary * k_stationary < 1)%Q) by (split; reflexivity).
  generalize dependent (k_stationary * k_stationary)%Q. intros k Hk.
  intros [[-> H]|[[-> H]|[[-> H]|[[-> H]|[-> H]]]]] [[-> G]|[[-> G]|[[-> G]|[[-> G]|[-> G]]]]]; try reflexivity; exfalso; lra.
Qed.
Lemma camera_unique o b b' : camera_bucket o b -> camera_bucket o b' -> b = b'.
Proof. intros (c & d & Hc & E) (c' & d' & Hc' & E'). rewrite (object_camera_unique _ _ _ Hc Hc') in E. congruence. Qed.

Lemma bucketed_names g t i label : (g = RANGE \/ g = SIZE \/ g = VELOCITY \/ g = CAMERA) -> t <> TYPE_UNKNOWN ->
  nth_error (py_buckets g) i = Some label ->
  let s := Z.of_nat i + Z.of_nat (List.length (py_buckets g)) * (type_num t - 1) in
  0 <= s < num_shards g /\ shard_name g s = Ok (cat [gen_name g; "_"; type_name t; "_"; label]%string).
Proof.
  intros Hg Ht Hi. cbv zeta. assert (Hl : (i < 5)%nat).
  { assert (i < List.length (py_buckets g))%nat by (apply nth_error_Some; congruence).
    destruct Hg as [->|[->|[->| ->]]]; cbn [py_buckets List.length] in H; lia. }
  destruct Hg as [->|[->|[->| ->]]]; (do 5 (try destruct i as [|i]); [..|lia]); cbn [py_buckets nth_error] in Hi; inversion Hi; subst label;
  (destruct t; [now destruct Ht| | | |]); (split; [cbn; lia|reflexivity]).
Qed.
Lemma cat4 a t b : cat [a; "_"; t; "_"; b]%string = cat [String.append a "_"; t; "_"; b]%string.
Proof.
  unfold cat. cbn [String.concat]. induction a as [|x a IH]; cbn; [reflexivity|]. f_equal. exact IH.
Qed.

Theorem shard_meaning g o s : implemented g = true -> shard g o = Ok s ->
  (s = -1 /\ forall n, ~ belongs g o n) \/
  (0 <= s < num_shards g /\ exists n, shard_name g s = Ok n /\ belongs g o n /\ forall n', belongs g o n' -> n' = n).
Proof.
  intros Hg E.
  assert (GB : forall bucket, (g = RANGE \/ g = SIZE \/ g = VELOCITY \/ g = CAMERA) -> typ o <> TYPE_UNKNOWN -> has_bucket g o bucket ->
     (forall b b', bucket b -> bucket b' -> b = b') ->
     (forall n, belongs g o n <-> typ o <> TYPE_UNKNOWN /\ exists b, bucket b /\ n = cat [gen_name g; "_"; type_name (typ o); "_"; b]%string) ->
     0 <= s < num_shards g /\ exists n, shard_name g s = Ok n /\ belongs g o n /\ forall n', belongs g o n' -> n' = n).
  { intros bucket Hgg Ht (i & label & Es & Hn & Hb) Hu Hbel. rewrite E in Es. apply Ok_inj in Es. subst s.
    destruct (bucketed_names g (typ o) i label Hgg Ht Hn) as [B N]. split; [exact B|]. eexists. split; [exact N|]. split.
    - apply Hbel. split; [exact Ht|]. exists label. now split.
    - intros n' H'. apply Hbel in H'. destruct H' as (_ & b & Hb' & ->). now rewrite (Hu b label Hb' Hb). }
  destruct g; try discriminate Hg.
  - (* ONE_SHARD *) right. cbn in E. apply Ok_inj in E. subst s. split; [cbn; lia|]. eexists. split; [reflexivity|]. split; [reflexivity|]. intros n' H'. exact H'.
  - (* OBJECT_TYPE *) cbn [shard] in E. apply Ok_inj in E. destruct (typ o) eqn:Et; cbn [type_num] in E; subst s.
    { left. split; [reflexivity|]. intros n [H _]. now apply H. }
    all: right; (split; [unfold num_shards, type_max; lia|]); eexists; (split; [reflexivity|]); unfold belongs; rewrite Et; split; [split; [discriminate|reflexivity]|intros n' [_ H']; exact H'].
  - (* RANGE *) destruct (typ o) eqn:Et.
    { left. cbn [shard] in E. rewrite Et in E. apply Ok_inj in E. split; [now symmetry|]. intros n [H _]. now apply H. }
    all: right; apply (GB (range_bucket o)); [auto|congruence|apply range_shard; congruence|apply range_unique|intros n; unfold belongs; setoid_rewrite cat4; rewrite ?Et; reflexivity].
  - (* VELOCITY *) destruct (typ o) eqn:Et.
    { left. cbn [shard] in E. rewrite Et in E. apply Ok_inj in E. split; [now symmetry|]. intros n [H _]. now apply H. }
    all: right; apply (GB (speed_bucket o)); [auto|congruence|apply speed_shard; congruence|apply speed_unique|intros n; unfold belongs; setoid_rewrite cat4; rewrite ?Et; reflexivity].
  - (* ALL_BUT_SIGN *) right. cbn [shard] in E. unfold belongs.
    destruct (typ o) eqn:Et; apply Ok_inj in E; subst s; (split; [cbn; lia|]); eexists; (split; [reflexivity|]);
      (split; [first [left; split; reflexivity|right; split; [reflexivity|discriminate]]|intros n' [[-> H]|[-> H]]; first [reflexivity|congruence|now destruct H]]).
  - (* SIZE *) destruct (typ o) eqn:Et.
    { left. cbn [shard] in E. rewrite Et in E. apply Ok_inj in E. split; [now symmetry|]. intros n [H _]. now apply H. }
    all: right; apply (GB (size_bucket o)); [auto|congruence|apply size_shard; congruence|apply size_unique|intros n; unfold belongs; setoid_rewrite cat4; rewrite ?Et; reflexivity].
  - (* CAMERA *) destruct (typ o) eqn:Et.
    { left. cbn [shard] in E. rewrite Et in E. apply Ok_inj in E. split; [now symmetry|]. intros n [H _]. now apply H. }
    all: assert (Ht : typ o <> TYPE_UNKNOWN) by congruence;
      destruct (camera_shard o Ht) as [H|[[H N]|[H _]]];
      [right; apply (GB (camera_bucket o)); [auto|congruence|exact H|apply camera_unique|intros n; unfold belongs; setoid_rewrite cat4; rewrite ?Et; reflexivity]
      |left; split; [rewrite E in H; now apply Ok_inj in H|intros n (_ & b & Hb & _); now apply (N b)]
      |congruence].
Qed.
