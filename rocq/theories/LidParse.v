(** Parsing a frame. *)
From Coq Require Import Reals List Arith ZArith Lia Bool.
From Verif Require Import Base ResultLib LidModel LidSpec.
Import ListNotations.
Open Scope nat_scope.

Definition nonempty {A} (l : list A) : option (list A) := match l with [] => None | _ => Some l end.
Lemma get_set {V} (d : dict V) k v k' : get (set d k v) k' = if Z.eqb k' k then Some v else get d k'.
Proof. reflexivity. Qed.
Lemma append_ok {V} (d : dict (list V)) k v l : get d k = Some l -> append_to d k v = Ok (set d k (l ++ [v])).
Proof. unfold append_to. now intros ->. Qed.
Lemma append_key {V} (d : dict (list V)) k v : get d k = None -> append_to d k v = Err KeyError.
Proof. unfold append_to. now intros ->. Qed.

Definition step (p : parsed) (l : laser) : result parsed := parse_return2 (parse_return1 p l) l.
Definition fresh (p : parsed) (n : Z) : Prop := get (range_images p) n = None /\ get (camera_projections p) n = None /\ get (seg_labels p) n = None.
Definition holds (p : parsed) (l : laser) : Prop :=
  get (range_images p) (laser_name l) = nonempty (returns range_image l) /\
  get (camera_projections p) (laser_name l) = nonempty (projections l) /\
  get (seg_labels p) (laser_name l) = nonempty (returns segmentation_label l).
Definition unchanged (p p' : parsed) (n : Z) : Prop :=
  get (range_images p') n = get (range_images p) n /\ get (camera_projections p') n = get (camera_projections p) n /\ get (seg_labels p') n = get (seg_labels p) n.
Definition top_after (l : laser) (m : matrix R) : matrix R :=
  if Z.eqb (laser_name l) TOP then match range_image (ri_return1 l) with Some _ => decode (range_image_pose (ri_return1 l)) | None => m end else m.

Lemma step_ok p l : fresh p (laser_name l) -> in_sequence l ->
  exists p', step p l = Ok p' /\ holds p' l /\ (forall n, n <> laser_name l -> unchanged p p' n) /\ range_image_top_pose p' = top_after l (range_image_top_pose p).
Proof.
  intros (F1 & F2 & F3) S. unfold step, parse_return1, parse_return2, holds, unchanged, top_after, in_sequence, returns, projections, returns in *.
  set (n := laser_name l) in *. destruct (range_image (ri_return1 l)) as [a|] eqn:A.
  - destruct (range_image (ri_return2 l)) as [b|] eqn:B.
    + destruct S as [_ S]; [discriminate|]. cbn [range_images camera_projections seg_labels range_image_top_pose].
      unfold append_to. rewrite !get_set, Z.eqb_refl. cbn [bind].
      destruct (segmentation_label (ri_return1 l)) as [s1|] eqn:S1; destruct (segmentation_label (ri_return2 l)) as [s2|] eqn:S2.
      * rewrite get_set, Z.eqb_refl. cbn [bind]. eexists. split; [reflexivity|]. cbn [range_images camera_projections seg_labels range_image_top_pose].
        split; [rewrite !get_set, Z.eqb_refl; auto|]. split; [|reflexivity]. intros m Hm. apply Z.eqb_neq in Hm. rewrite !get_set, Hm. auto.
      * cbn [bind]. eexists. split; [reflexivity|]. cbn [range_images camera_projections seg_labels range_image_top_pose].
        split; [rewrite !get_set, Z.eqb_refl; auto|]. split; [|reflexivity]. intros m Hm. apply Z.eqb_neq in Hm. rewrite !get_set, Hm. auto.
      * exfalso. apply S; congruence.
      * cbn [bind]. eexists. split; [reflexivity|]. cbn [range_images camera_projections seg_labels range_image_top_pose].
        split; [rewrite !get_set, Z.eqb_refl; auto|]. split; [|reflexivity]. intros m Hm. apply Z.eqb_neq in Hm. rewrite !get_set, Hm. auto.
    + eexists. split; [reflexivity|]. cbn [range_images camera_projections seg_labels range_image_top_pose].
      split; [rewrite !get_set, Z.eqb_refl; destruct (segmentation_label (ri_return1 l)); rewrite ?get_set, ?Z.eqb_refl; auto|].
      split; [|reflexivity]. intros m Hm. apply Z.eqb_neq in Hm. rewrite !get_set, Hm. destruct (segmentation_label (ri_return1 l)); rewrite ?get_set, ?Hm; auto.
  - destruct (range_image (ri_return2 l)) as [b|] eqn:B; [destruct S as [S _]; congruence|].
    exists p. split; [reflexivity|]. split; [auto|]. split; [auto|]. destruct (Z.eqb n TOP); reflexivity.
Qed.
Lemma step_error p l : fresh p (laser_name l) -> ~ in_sequence l -> step p l = Err KeyError.
Proof.
  intros (F1 & F2 & F3) S. unfold step, parse_return1, parse_return2, in_sequence in *. set (n := laser_name l) in *.
  destruct (range_image (ri_return2 l)) as [b|] eqn:B; [|exfalso; apply S; congruence].
  destruct (range_image (ri_return1 l)) as [a|] eqn:A.
  - cbn [range_images camera_projections seg_labels range_image_top_pose]. unfold append_to. rewrite !get_set, Z.eqb_refl. cbn [bind].
    destruct (segmentation_label (ri_return1 l)) as [s1|] eqn:S1; [exfalso; apply S; intros _; split; [discriminate | congruence]|].
    destruct (segmentation_label (ri_return2 l)) as [s2|] eqn:S2; [now rewrite F3|]. exfalso. apply S. intros _. split; [discriminate | congruence].
  - now rewrite append_key by exact F1.
Qed.
Lemma in_sequence_dec l : {in_sequence l} + {~ in_sequence l}.
Proof.
  unfold in_sequence. destruct (range_image (ri_return2 l)) as [b|]; [|left; congruence]. destruct (range_image (ri_return1 l)) as [a|]; [|right; intros S; destruct S; congruence].
  destruct (segmentation_label (ri_return2 l)) as [s2|]; [|left; intros _; split; [discriminate | congruence]].
  destruct (segmentation_label (ri_return1 l)) as [s1|]; [left; intros _; split; discriminate | right; intros S; destruct S as [_ S]; [discriminate|]; apply S; [discriminate | reflexivity]].
Qed.
Definition top_of (ls : list laser) (m : matrix R) : matrix R := fold_left (fun m l => top_after l m) ls m.
Lemma parse_from ls : forall p, NoDup (map laser_name ls) -> (forall l, In l ls -> fresh p (laser_name l)) ->
  ((exists p', foldM step ls p = Ok p') <-> Forall in_sequence ls) /\
  (~ Forall in_sequence ls -> foldM step ls p = Err KeyError) /\
  forall p', foldM step ls p = Ok p' -> (forall l, In l ls -> holds p' l) /\ (forall n, ~ In n (map laser_name ls) -> unchanged p p' n) /\
    range_image_top_pose p' = top_of ls (range_image_top_pose p).
Proof.
  induction ls as [|l ls IH]; intros p D F; cbn [foldM].
  - split; [split; [constructor | eauto]|]. split; [intros N; elim N; constructor|]. intros p' E. apply Ok_inj in E. subst p'.
    split; [intros l []|]. split; [intros n _; repeat split | reflexivity].
  - cbn [map] in D. apply NoDup_cons_iff in D. destruct D as [D1 D2]. destruct (in_sequence_dec l) as [S|S].
    + destruct (step_ok p l (F l (or_introl eq_refl)) S) as (q & E & H & U & T). rewrite E. cbn [bind].
      destruct (IH q D2) as (I1 & I2 & I3).
      { intros l' Hl'. assert (N : laser_name l' <> laser_name l) by (intros N; apply D1; rewrite <- N; now apply in_map).
        destruct (U _ N) as (U1 & U2 & U3). unfold fresh. rewrite U1, U2, U3. apply F. now right. }
      split; [rewrite I1; split; [intros A; now constructor | intros A; now inversion A]|].
      split; [intros N; apply I2; intros A; apply N; now constructor|]. intros p' E'. destruct (I3 p' E') as (J1 & J2 & J3). split; [|split].
      * intros l' [<-|Hl']; [|auto]. destruct (J2 (laser_name l) D1) as (U1 & U2 & U3). unfold holds. rewrite U1, U2, U3. exact H.
      * intros n Hn. cbn [map] in Hn. destruct (J2 n) as (U1 & U2 & U3); [intros Q; apply Hn; now right|].
        destruct (U n) as (V1 & V2 & V3); [intros ->; apply Hn; now left|]. unfold unchanged. rewrite U1, U2, U3. auto.
      * rewrite J3, T. reflexivity.
    + rewrite (step_error p l (F l (or_introl eq_refl)) S). cbn [bind]. split; [split; [intros [p' ?]; discriminate | intros A; inversion A; contradiction]|].
      split; [reflexivity | discriminate].
Qed.
Lemma top_of_absent ls m : (forall l, In l ls -> laser_name l = TOP -> range_image (ri_return1 l) = None) -> top_of ls m = m.
Proof.
  revert m. induction ls as [|l ls IH]; intros m H; cbn [top_of fold_left]; [reflexivity|]. change (top_of ls (top_after l m) = m).
  rewrite IH by (intros l' Hl'; apply H; now right). unfold top_after. destruct (Z.eqb_spec (laser_name l) TOP) as [E|E]; [|reflexivity].
  now rewrite (H l (or_introl eq_refl) E).
Qed.
Lemma top_of_present ls : forall m l ri, NoDup (map laser_name ls) -> In l ls -> laser_name l = TOP -> range_image (ri_return1 l) = Some ri ->
  top_of ls m = decode (range_image_pose (ri_return1 l)).
Proof.
  induction ls as [|k ls IH]; intros m l ri D I T R; [destruct I|]. cbn [map] in D. apply NoDup_cons_iff in D. destruct D as [D1 D2].
  change (top_of ls (top_after k m) = decode (range_image_pose (ri_return1 l))). destruct I as [->|I].
  - rewrite top_of_absent.
    + unfold top_after. rewrite T, R. reflexivity.
    + intros k Hk Tk. exfalso. apply D1. rewrite T, <- Tk. now apply in_map.
  - exact (IH _ l ri D2 I T R).
Qed.

Theorem parse_defined f : distinct_lasers f ->
  ((exists p, parse_frame f = Ok p) <-> Forall in_sequence (lasers f)) /\ (~ Forall in_sequence (lasers f) -> parse_frame f = Err KeyError).
Proof.
  intros D. unfold parse_frame. destruct (parse_from (lasers f) {| range_images := []; camera_projections := []; seg_labels := []; range_image_top_pose := no_matrix |} D) as (A & B & _).
  - intros l _. repeat split.
  - split; [exact A | exact B].
Qed.
Theorem parse_content f p : distinct_lasers f -> parse_frame f = Ok p ->
  (forall l, In l (lasers f) -> holds p l) /\
  (forall n, ~ In n (map laser_name (lasers f)) -> get (range_images p) n = None /\ get (camera_projections p) n = None /\ get (seg_labels p) n = None) /\
  (forall l ri, In l (lasers f) -> laser_name l = TOP -> range_image (ri_return1 l) = Some ri -> range_image_top_pose p = decode (range_image_pose (ri_return1 l))) /\
  ((forall l, In l (lasers f) -> laser_name l = TOP -> range_image (ri_return1 l) = None) -> range_image_top_pose p = no_matrix).
Proof.
  intros D E. unfold parse_frame in E. destruct (parse_from (lasers f) {| range_images := []; camera_projections := []; seg_labels := []; range_image_top_pose := no_matrix |} D) as (_ & _ & C).
  { intros l _. repeat split. }
  destruct (C p E) as (H & U & T). cbn [range_image_top_pose] in T. split; [exact H|]. split; [intros n Hn; exact (U n Hn)|]. split.
  - intros l ri Hl Ht R. rewrite T. exact (top_of_present _ _ l ri D Hl Ht R).
  - intros A. rewrite T. now apply top_of_absent.
Qed.
Lemma nth_nonempty {A} (l : list A) k v : match nonempty l with Some l' => nth_error l' k | None => None end = Some v <-> nth_error l k = Some v.
Proof. destruct l; [destruct k; tauto | tauto]. Qed.
(** What the lookup by name and return gives. *)
Theorem fetch_image f p l k ri : distinct_lasers f -> parse_frame f = Ok p -> In l (lasers f) ->
  (fetch (range_images p) (laser_name l) k = Ok ri <-> nth_error (returns range_image l) k = Some ri) /\
  (forall cp, fetch (camera_projections p) (laser_name l) k = Ok cp <-> nth_error (projections l) k = Some cp).
Proof.
  intros D E I. destruct (parse_content f p D E) as (H & _). destruct (H l I) as (H1 & H2 & _). unfold fetch. rewrite H1, H2.
  split; [|intros cp].
  - destruct (returns range_image l) as [|m ms]; cbn [nonempty]; [destruct k; split; discriminate|]. destruct (nth_error (m :: ms) k); split; congruence.
  - destruct (projections l) as [|m ms]; cbn [nonempty]; [destruct k; split; discriminate|]. destruct (nth_error (m :: ms) k); split; congruence.
Qed.
Theorem fetch_inv f p n k ri : distinct_lasers f -> parse_frame f = Ok p -> fetch (range_images p) n k = Ok ri ->
  exists l, laser_of f n l /\ nth_error (returns range_image l) k = Some ri.
Proof.
  intros D E F. destruct (in_dec Z.eq_dec n (map laser_name (lasers f))) as [I|I].
  - apply in_map_iff in I. destruct I as (l & <- & I). exists l. split; [now split|]. apply (fetch_image f p l k ri D E I). exact F.
  - destruct (parse_content f p D E) as (_ & U & _). destruct (U n I) as [U1 _]. unfold fetch in F. rewrite U1 in F. discriminate.
Qed.
