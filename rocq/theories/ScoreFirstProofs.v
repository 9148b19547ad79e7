From Coq Require Import Permutation Sorted.
From Verif Require Import Base ResultLib ListLib HungarianModel HungarianProofs MatcherModel MatcherSpec MatcherProofs.
Open Scope Z_scope.

Section Pure.
Variables np ng : nat.
Variable canb : nat -> nat -> bool.
Variable w : nat -> nat -> Z.
Hypothesis Hw : forall i j, 0 <= w i j.

Definition pbest (gm : list (option nat)) (pi : nat) (best : option nat * Z) (gi : nat) : option nat * Z :=
  match nth gi gm None with
  | Some _ => best
  | None => if canb pi gi then (if snd best <? w pi gi then (Some gi, w pi gi) else best) else best
  end.
Definition pstep_sf (pg : list (option nat) * list (option nat)) (pi : nat) :=
  match fst (fold_left (pbest (snd pg) pi) (seq 0 ng) (None, -1)) with
  | None => pg
  | Some gi => (upd (fst pg) pi (Some gi), upd (snd pg) gi (Some pi))
  end.

Lemma pbest_spec gm pi : forall k,
  let b := fold_left (pbest gm pi) (seq 0 k) (None, -1) in
  match fst b with
  | None => snd b = -1 /\ forall j, (j < k)%nat -> nth j gm None = None -> canb pi j = false
  | Some g => (g < k)%nat /\ nth g gm None = None /\ canb pi g = true /\ snd b = w pi g /\
      forall j, (j < k)%nat -> nth j gm None = None -> canb pi j = true -> w pi j <= w pi g
  end.
Proof.
  induction k as [|k IH].
  - cbn. split; [reflexivity|]. intros j Hj. lia.
  - rewrite seq_S, fold_left_app. cbn [fold_left Nat.add]. cbv zeta in IH.
    set (b := fold_left (pbest gm pi) (seq 0 k) (None, -1)) in *. clearbody b.
    unfold pbest.
    assert (Hkeep : forall o, nth k gm None = Some o \/ canb pi k = false \/ w pi k <= snd b ->
      (fst b = None -> nth k gm None = Some o \/ canb pi k = false) ->
      match fst b with
      | None => snd b = -1 /\ forall j, (j < S k)%nat -> nth j gm None = None -> canb pi j = false
      | Some g => (g < S k)%nat /\ nth g gm None = None /\ canb pi g = true /\ snd b = w pi g /\
          forall j, (j < S k)%nat -> nth j gm None = None -> canb pi j = true -> w pi j <= w pi g
      end).
    { intros o Ho Hn. destruct (fst b) as [g|].
      - destruct IH as (H1 & H2 & H3 & H4 & H5). repeat split; auto; try lia.
        intros j Hj Ej Ec. destruct (Nat.eq_dec j k) as [->|Hne]; [|apply H5; auto; lia].
        destruct Ho as [Ho|[Ho|Ho]]; [congruence|congruence|lia].
      - destruct IH as (H1 & H2). split; [exact H1|]. intros j Hj Ej.
        destruct (Nat.eq_dec j k) as [->|Hne]; [|apply H2; auto; lia].
        destruct (Hn eq_refl) as [Hn'|Hn']; [congruence|exact Hn']. }
    destruct (nth k gm None) as [o|] eqn:Eg.
    { apply (Hkeep o); auto. }
    destruct (canb pi k) eqn:Ec.
    2:{ apply (Hkeep 0%nat); auto. }
    destruct (Z.ltb_spec (snd b) (w pi k)) as [Hlt|Hge].
    + cbn [fst snd]. repeat split; auto; try lia.
      intros j Hj Ej Ecj. destruct (Nat.eq_dec j k) as [->|Hne]; [lia|].
      destruct (fst b) as [g|].
      * destruct IH as (_ & _ & _ & H4 & H5). specialize (H5 j ltac:(lia) Ej Ecj). lia.
      * destruct IH as (_ & H2). rewrite (H2 j ltac:(lia) Ej) in Ecj. discriminate.
    + apply (Hkeep 0%nat); [auto|]. intros En. exfalso. rewrite En in IH. destruct IH as (H1 & _).
      specialize (Hw pi k). lia.
Qed.

Record SFI (dn : list nat) (pm gm : list (option nat)) : Prop := {
  sf_lp : length pm = np; sf_lg : length gm = ng;
  sf_inv : forall i j, nth i pm None = Some j <-> nth j gm None = Some i;
  sf_ok : forall i j, nth i pm None = Some j -> (i < np)%nat /\ (j < ng)%nat /\ canb i j = true;
  sf_done : forall i, nth i pm None <> None -> In i dn;
  sf_stable : greedy_stable ng dn (fun i j => canb i j = true) w pm gm }.

Lemma before_snoc dn a b c : before dn a b -> before (dn ++ [c]) a b.
Proof.
  intros (l1 & l2 & l3 & ->). exists l1, l2, (l3 ++ [c]). rewrite <- !app_assoc. simpl.
  now rewrite <- app_assoc.
Qed.

Lemma before_last dn a c : In a dn -> before (dn ++ [c]) a c.
Proof.
  intros H. apply in_split in H as (l1 & l2 & ->). exists l1, l2, [].
  now rewrite <- app_assoc.
Qed.

Lemma sf_step_inv dn pm gm i :
  SFI dn pm gm -> ~ In i dn -> (i < np)%nat ->
  SFI (dn ++ [i]) (fst (pstep_sf (pm, gm) i)) (snd (pstep_sf (pm, gm) i)).
Proof.
  intros [L1 L2 HI HO HD HS] Hi Hnp. unfold pstep_sf. cbn [fst snd].
  pose proof (pbest_spec gm i ng) as HB. cbv zeta in HB.
  set (b := fold_left (pbest gm i) (seq 0 ng) (None, -1)) in *. clearbody b.
  assert (Hpi : nth i pm None = None).
  { destruct (nth i pm None) eqn:E; [|reflexivity]. exfalso. apply Hi, HD. congruence. }
  destruct (fst b) as [g|]; cbn [fst snd].
  - destruct HB as (Hg & Eg & Ec & _ & Hmax).
    assert (Pn : forall k, nth k (upd pm i (Some g)) None = if Nat.eqb k i then Some g else nth k pm None).
    { intros k. destruct (Nat.eqb_spec k i) as [->|Hne]; [apply nth_upd_eq; lia|apply nth_upd_neq; congruence]. }
    assert (Gn : forall k, nth k (upd gm g (Some i)) None = if Nat.eqb k g then Some i else nth k gm None).
    { intros k. destruct (Nat.eqb_spec k g) as [->|Hne]; [apply nth_upd_eq; lia|apply nth_upd_neq; congruence]. }
    constructor.
    + now rewrite upd_length.
    + now rewrite upd_length.
    + intros a c. rewrite Pn, Gn. destruct (Nat.eqb_spec a i) as [->|Ha]; destruct (Nat.eqb_spec c g) as [->|Hc].
      * split; reflexivity.
      * split; [congruence|]. intros H. apply HI in H. congruence.
      * split; [|congruence]. intros H. apply HI in H. congruence.
      * apply HI.
    + intros a c. rewrite Pn. destruct (Nat.eqb_spec a i) as [->|Ha]; [|apply HO].
      intros [= <-]. auto.
    + intros a. rewrite Pn. rewrite in_app_iff. destruct (Nat.eqb_spec a i) as [->|Ha]; [simpl; auto|].
      intros H. left. now apply HD.
    + intros a c Ha Hc Hok. rewrite Pn, Gn. apply in_app_iff in Ha as [Ha|[<-|[]]].
      * destruct (Nat.eqb_spec a i) as [->|Hne]; [contradiction|].
        destruct (HS a c Ha Hc Hok) as [(j' & E & Hle)|(i' & E & Hb)]; [left; eauto|].
        right. destruct (Nat.eqb_spec c g) as [->|Hcg]; [congruence|]. exists i'. split; [exact E|].
        now apply before_snoc.
      * rewrite Nat.eqb_refl. destruct (nth c gm None) as [i'|] eqn:Ecg.
        -- right. destruct (Nat.eqb_spec c g) as [->|Hcg]; [congruence|]. exists i'. split; [reflexivity|].
           apply before_last, HD. apply HI in Ecg. congruence.
        -- left. exists g. split; [reflexivity|]. now apply Hmax.
  - destruct HB as (_ & HB). constructor; auto.
    + intros a Ha. apply in_app_iff. left. now apply HD.
    + intros a c Ha Hc Hok. apply in_app_iff in Ha as [Ha|[<-|[]]].
      * destruct (HS a c Ha Hc Hok) as [H|(i' & E & Hb)]; [now left|].
        right. exists i'. split; [exact E|]. now apply before_snoc.
      * destruct (nth c gm None) as [i'|] eqn:Ecg; [|rewrite (HB c Hc Ecg) in Hok; discriminate].
        right. exists i'. split; [reflexivity|]. apply before_last, HD. apply HI in Ecg. congruence.
Qed.

Lemma sf_fold_inv todo : forall dn pg,
  SFI dn (fst pg) (snd pg) -> NoDup (dn ++ todo) -> Forall (fun i => i < np)%nat todo ->
  let r := fold_left pstep_sf todo pg in SFI (dn ++ todo) (fst r) (snd r).
Proof.
  induction todo as [|i todo IH]; intros dn [pm gm] HI Hnd Hb; cbn [fold_left].
  - now rewrite app_nil_r.
  - inversion Hb as [|i' t' Hi Hb']; subst.
    replace (dn ++ i :: todo) with ((dn ++ [i]) ++ todo) in * by (now rewrite <- app_assoc).
    apply IH; [|exact Hnd|exact Hb'].
    apply sf_step_inv; [exact HI| |exact Hi].
    apply nodup_app_inv in Hnd as (H1 & _ & _). apply nodup_app_inv in H1 as (_ & _ & H3).
    intros Hin. apply (H3 i Hin). now left.
Qed.

Lemma sf_init : SFI [] (repeat None np) (repeat None ng).
Proof.
  constructor; try apply repeat_length.
  - intros i j. rewrite !nth_repeat_none. split; discriminate.
  - intros i j E. rewrite nth_repeat_none in E. discriminate.
  - intros i E. now rewrite nth_repeat_none in E.
  - intros i j [].
Qed.
End Pure.

Section Api.
Context {box : Type}.
Variable cfg : config box.
Variable fr : frame box.
Hypothesis Hfr : frame_ok cfg fr.
Variables psub gsub : list nat.
Hypothesis Hps : subset_ok (preds fr) psub.
Hypothesis Hgs : subset_ok (gts fr) gsub.
Hypothesis Hpl : (length psub <= length (preds fr))%nat.
Hypothesis Hgl : (length gsub <= length (gts fr))%nat.

(** The weight the code consults: positions inside the subsets used as object indices. *)
Definition used_weight (i j : nat) : Z :=
  match nth_error (preds fr) i, nth_error (gts fr) j with
  | Some p, Some g => objective cfg p g
  | _, _ => 0
  end.

Lemma used_weight_nonneg i j : 0 <= used_weight i j.
Proof.
  unfold used_weight. destruct (nth_error (preds fr) i) as [p|] eqn:Ep; [|lia].
  destruct (nth_error (gts fr) j) as [g|] eqn:Eg; [|lia].
  apply (objective_bounds cfg fr Hfr p g); eapply nth_error_In; eassumption.
Qed.

Notation canb := (canb cfg fr psub gsub).

Lemma sf_best_ok gm pi b gi : (pi < length psub)%nat -> (gi < length gsub)%nat ->
  sf_best box cfg fr psub gsub gm pi b gi = Ok (pbest canb used_weight gm pi b gi).
Proof.
  intros Hp Hg. unfold sf_best, pbest. destruct (nth gi gm None); [reflexivity|].
  destruct (subset_nth _ _ pi Hps Hp) as (p & po & Ep & Epo & _).
  destruct (subset_nth _ _ gi Hgs Hg) as (g & go & Eg & Ego & _).
  rewrite (nth_result_ok _ _ _ _ Ep), (nth_result_ok _ _ _ _ Eg). cbn [bind].
  rewrite (can_match_ok cfg fr Hfr _ _ _ _ Epo Ego). cbn [bind].
  assert (Ec : canb pi gi = allowedb cfg po go).
  { unfold MatcherProofs.canb, selected. now rewrite Ep, Eg, Epo, Ego. }
  rewrite Ec. destruct (allowedb cfg po go); [|reflexivity].
  destruct (nth_error (preds fr) pi) as [po'|] eqn:Ep'.
  2:{ apply nth_error_None in Ep'. lia. }
  destruct (nth_error (gts fr) gi) as [go'|] eqn:Eg'.
  2:{ apply nth_error_None in Eg'. lia. }
  rewrite (matching_weight_ok cfg fr Hfr _ _ _ _ Ep' Eg'). cbn [bind].
  unfold used_weight. rewrite Ep', Eg'. now destruct (snd b <? objective cfg po' go').
Qed.

Lemma sf_step_ok pg pi : (pi < length psub)%nat ->
  sf_step box cfg fr psub gsub pg pi = Ok (pstep_sf (length gsub) canb used_weight pg pi).
Proof.
  intros Hp. unfold sf_step, pstep_sf.
  rewrite (foldM_ok _ (pbest canb used_weight (snd pg) pi)).
  2:{ intros s gi Hgi. apply in_seq in Hgi. apply sf_best_ok; lia. }
  cbn [bind]. destruct (fst _); reflexivity.
Qed.

Lemma resize_nil n : resize [] n = repeat None n.
Proof. unfold resize. rewrite firstn_nil. simpl. now rewrite Nat.sub_0_r. Qed.

Lemma score_first_correct order :
  Permutation order (seq 0 (length psub)) ->
  exists pm gm, score_first_match box cfg fr order psub gsub [] [] = Ok (pm, gm) /\
    mutually_inverse (length psub) (length gsub) pm gm /\
    valid_assignment (length psub) (length gsub) (pair_ok cfg fr psub gsub) pm /\
    greedy_stable (length gsub) order (pair_ok cfg fr psub gsub) used_weight pm gm.
Proof.
  intros HP. unfold score_first_match. rewrite !resize_nil.
  assert (Hb : Forall (fun i => i < length psub)%nat order).
  { apply Forall_forall. intros i Hi. apply (Permutation_in _ HP) in Hi. apply in_seq in Hi. lia. }
  rewrite (foldM_ok _ (pstep_sf (length gsub) canb used_weight)).
  2:{ intros s i Hi. rewrite Forall_forall in Hb. now apply sf_step_ok, Hb. }
  pose proof (sf_fold_inv (length psub) (length gsub) canb used_weight used_weight_nonneg
    order [] (repeat None (length psub), repeat None (length gsub))
    (sf_init _ _ _ _)
    (Permutation_NoDup (Permutation_sym HP) (seq_NoDup _ _)) Hb) as HI.
  cbv zeta in HI. set (r := fold_left _ _ _) in *. destruct r as [pm gm]. cbn [fst snd app] in HI.
  destruct HI as [L1 L2 HI HO HD HS].
  exists pm, gm. split; [reflexivity|]. split; [|split].
  - split; [exact L1|]. split; [exact L2|exact HI].
  - split; [exact L1|]. split.
    + intros i j E. destruct (HO i j E) as (H1 & H2 & H3). repeat split; auto. now apply canb_spec in H3.
    + intros i i' j E E'. apply HI in E. apply HI in E'. congruence.
  - intros i j Hi Hj Hok. apply HS; auto. now apply canb_spec.
Qed.
End Api.

Lemma nth_error_seq n i : (i < n)%nat -> nth_error (seq 0 n) i = Some i.
Proof.
  intros H. rewrite (nth_error_nth' _ 0%nat) by (now rewrite seq_length).
  now rewrite seq_nth.
Qed.

Lemma seq_subset_ok {box} (l : list (object box)) : subset_ok l (seq 0 (length l)).
Proof. apply Forall_forall. intros i Hi. apply in_seq in Hi. lia. Qed.

Lemma selected_seq {box} (l : list (object box)) i : selected l (seq 0 (length l)) i = nth_error l i.
Proof.
  unfold selected. destruct (Nat.lt_ge_cases i (length l)) as [Hi|Hi].
  - now rewrite nth_error_seq.
  - rewrite (proj2 (nth_error_None (seq 0 (length l)) i)) by (now rewrite seq_length).
    symmetry. now apply nth_error_None.
Qed.

Lemma score_first_full {box} (cfg : config box) fr order :
  frame_ok cfg fr ->
  let psub := seq 0 (length (preds fr)) in
  let gsub := seq 0 (length (gts fr)) in
  score_order fr psub order ->
  exists pm gm, score_first_match box cfg fr order psub gsub [] [] = Ok (pm, gm) /\
    greedy_stable (length gsub) order (pair_ok cfg fr psub gsub) (pair_weight cfg fr psub gsub) pm gm.
Proof.
  intros Hfr psub gsub [HP _].
  destruct (score_first_correct cfg fr Hfr psub gsub) with (order := order) as (pm & gm & E & _ & _ & HS).
  - apply seq_subset_ok.
  - apply seq_subset_ok.
  - unfold psub. now rewrite seq_length.
  - unfold gsub. now rewrite seq_length.
  - exact HP.
  - exists pm, gm. split; [exact E|]. intros i j Hi Hj Hok.
    assert (Ew : forall j', used_weight cfg fr i j' = pair_weight cfg fr psub gsub i j').
    { intros j'. unfold used_weight, pair_weight, psub, gsub. now rewrite !selected_seq. }
    destruct (HS i j Hi Hj Hok) as [(j' & E' & Hle)|H]; [|now right].
    left. exists j'. split; [exact E'|]. now rewrite <- !Ew.
Qed.

Lemma before_score {box} (fr : frame box) psub order a b :
  score_order fr psub order -> before order a b -> (score_at fr psub b <= score_at fr psub a)%Q.
Proof.
  intros [_ HS] (l1 & l2 & l3 & ->). induction l1 as [|c l1 IH]; simpl in HS.
  - apply StronglySorted_inv in HS as [_ HF]. rewrite Forall_forall in HF. apply HF.
    apply in_app_iff. right. now left.
  - apply IH. now apply StronglySorted_inv in HS as [HS _].
Qed.

Lemma allowed_same_type {box} (cfg : config box) (p g : object box) :
  (0 < nth (otype p) (thresholds cfg) 0)%Q -> allowed cfg p g -> otype p = otype g.
Proof.
  intros Hpos [H _]. unfold pair_iou in H. destruct (Nat.eqb_spec (otype p) (otype g)) as [E|E]; [exact E|].
  exfalso. apply (Qlt_irrefl 0). eapply Qlt_le_trans; eassumption.
Qed.

Lemma match_same_type {box} (cfg : config box) fr psub gsub pm gm :
  frame_ok cfg fr -> subset_ok (preds fr) psub -> subset_ok (gts fr) gsub ->
  Forall (fun t => 0 < t)%Q (thresholds cfg) ->
  hungarian_match box cfg fr psub gsub = Ok (pm, gm) ->
  forall i j, nth i pm None = Some j ->
    exists p g, selected (preds fr) psub i = Some p /\ selected (gts fr) gsub j = Some g /\ otype p = otype g.
Proof.
  intros Hfr Hps Hgs Ht E i j Eij.
  destruct (hungarian_match_correct cfg fr Hfr psub gsub Hps Hgs) as (pm' & gm' & E' & _ & (_ & HV & _) & _).
  rewrite E in E'. apply Ok_inj in E'. injection E' as <- <-.
  destruct (HV i j Eij) as (_ & _ & p & g & Ep & Eg & HA).
  exists p, g. split; [exact Ep|]. split; [exact Eg|].
  apply (allowed_same_type cfg); [|exact HA].
  unfold selected in Ep. destruct (nth_error psub i) as [k|]; [|discriminate].
  destruct (proj1 Hfr p (nth_error_In _ _ Ep)) as [_ Hl].
  rewrite Forall_forall in Ht. apply Ht. now apply nth_In.
Qed.

Lemma score_first_taken {box} (cfg : config box) fr psub gsub order pm gm :
  frame_ok cfg fr -> subset_ok (preds fr) psub -> subset_ok (gts fr) gsub ->
  (length psub <= length (preds fr))%nat -> (length gsub <= length (gts fr))%nat ->
  score_order fr psub order ->
  score_first_match box cfg fr order psub gsub [] [] = Ok (pm, gm) ->
  forall i j, (i < length psub)%nat -> (j < length gsub)%nat -> pair_ok cfg fr psub gsub i j ->
    nth i pm None = None ->
    exists i', nth j gm None = Some i' /\ (score_at fr psub i <= score_at fr psub i')%Q.
Proof.
  intros Hfr Hps Hgs L1 L2 HO E i j Hi Hj Hok Hn.
  destruct (score_first_correct cfg fr Hfr psub gsub Hps Hgs L1 L2 order (proj1 HO)) as (pm' & gm' & E' & _ & _ & HS).
  rewrite E in E'. apply Ok_inj in E'. injection E' as <- <-.
  assert (Hin : In i order).
  { apply (Permutation_in _ (Permutation_sym (proj1 HO))). apply in_seq. lia. }
  destruct (HS i j Hin Hj Hok) as [(j' & E' & _)|(i' & E' & Hb)]; [congruence|].
  exists i'. split; [exact E'|]. eapply before_score; eassumption.
Qed.

(** Two predictions and two ground truths; boxes are numbers, IoU is a table. *)
Definition tbl_iou (a b : nat) : Q :=
  match a, b with
  | 0%nat, 0%nat => 9#10 | 0%nat, 1%nat => 6#10 | 1%nat, 0%nat => 6#10 | 1%nat, 1%nat => 9#10 | _, _ => 0
  end.
Definition sf_cfg : config nat :=
  {| thresholds := [0; 1#2; 1#2; 1#2; 1#2]%Q; iou_fn := tbl_iou; affinity_fn := None |}.
Definition mk (t b : nat) (s : Q) : object nat := {| otype := t; oscore := s; obox := b |}.
Definition sf_fr : frame nat := {| preds := [mk 1 0 (1#2); mk 1 1 (3#4)]; gts := [mk 1 0 0; mk 1 1 0] |}.

Lemma sf_frame_ok : frame_ok sf_cfg sf_fr.
Proof.
  split; [|split].
  - intros p [<-|[<-|[]]]; simpl; lia.
  - intros p g Hp Hg _. destruct Hp as [<-|[<-|[]]]; destruct Hg as [<-|[<-|[]]]; split; discriminate.
  - discriminate.
Qed.

(** Only prediction 1 is selected; it should get ground truth 1 (IoU 0.9) but gets 0 (IoU 0.6). *)
Lemma score_first_subset_witness :
  exists order psub gsub pm gm,
    score_order sf_fr psub order /\ subset_ok (preds sf_fr) psub /\ subset_ok (gts sf_fr) gsub /\
    score_first_match nat sf_cfg sf_fr order psub gsub [] [] = Ok (pm, gm) /\
    ~ greedy_stable (length gsub) order (pair_ok sf_cfg sf_fr psub gsub)
        (pair_weight sf_cfg sf_fr psub gsub) pm gm.
Proof.
  exists [0%nat], [1%nat], [0;1]%nat, [Some 0%nat], [Some 0%nat; None].
  split; [split; [apply Permutation_refl|repeat constructor]|].
  split; [repeat constructor; simpl; lia|]. split; [repeat constructor; simpl; lia|].
  split; [vm_compute; reflexivity|].
  intros H. specialize (H 0%nat 1%nat). destruct H as [(j' & E & Hle)|(i' & E & _)].
  - now left.
  - simpl. lia.
  - exists (mk 1 1 (3#4)), (mk 1 1 0). split; [reflexivity|]. split; [reflexivity|].
    split; vm_compute; discriminate.
  - injection E as <-. vm_compute in Hle. congruence.
  - discriminate.
Qed.

Lemma score_first_stale_witness :
  exists order pm0 gm0 pm gm,
    score_order sf_fr [0;1]%nat order /\
    score_first_match nat sf_cfg sf_fr order [0;1]%nat [0;1]%nat pm0 gm0 = Ok (pm, gm) /\
    ~ mutually_inverse 2 2 pm gm.
Proof.
  exists [1;0]%nat, [], [Some 5%nat], [None; Some 1%nat], [Some 5%nat; Some 1%nat].
  split; [split; [apply perm_swap|repeat constructor; discriminate]|].
  - split; [vm_compute; reflexivity|]. intros (_ & _ & H). specialize (H 5%nat 0%nat). simpl in H.
    destruct H as [_ H]. specialize (H eq_refl). discriminate.
Qed.
