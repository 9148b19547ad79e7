From Coq Require Import String Ascii Sorted Permutation OrderedTypeEx.
From Verif Require Import Base ResultLib ToolModel ToolSpec.
Open Scope list_scope.
Open Scope Z_scope.

(** ** Strict total orders *)
Definition strict {K} (ltb : K -> K -> bool) : Prop :=
  (forall a, ltb a a = false) /\ (forall a b c, ltb a b = true -> ltb b c = true -> ltb a c = true) /\
  (forall a b, ltb a b = false -> ltb b a = false -> a = b).
Lemma strict_Z : strict Z.ltb.
Proof. split; [|split]; intros; rewrite ?Z.ltb_lt, ?Z.ltb_ge in *; lia. Qed.
Lemma string_ltb_lt a b : string_ltb a b = true <-> String_as_OT.lt a b.
Proof. unfold string_ltb. rewrite <- String_as_OT.cmp_lt. unfold String_as_OT.cmp. destruct (String.compare a b); split; congruence. Qed.
Lemma strict_string : strict string_ltb.
Proof.
  split; [|split].
  - intros a. apply not_true_is_false. rewrite string_ltb_lt. intros H. exact (String_as_OT.lt_not_eq _ _ H eq_refl).
  - intros a b c. rewrite !string_ltb_lt. apply String_as_OT.lt_trans.
  - intros a b. unfold string_ltb. rewrite (String.compare_antisym b a). destruct (String.compare a b) eqn:E; [|discriminate|discriminate].
    intros _ _. apply String.compare_eq_iff. exact E.
Qed.
Lemma strict_pair : strict pair_ltb.
Proof.
  destruct strict_string as (I & T & E). unfold pair_ltb. split; [|split].
  - intros [a x]. cbn [fst snd]. rewrite I, Z.ltb_irrefl. reflexivity.
  - intros [a x] [b y] [c z]. cbn [fst snd]. rewrite !orb_true_iff, !andb_true_iff, !negb_true_iff, !Z.ltb_lt.
    intros [H1|[H1 L1]] [H2|[H2 L2]].
    + left. exact (T _ _ _ H1 H2).
    + left. destruct (string_ltb b c) eqn:Q; [exact (T _ _ _ H1 Q)|]. rewrite <- (E b c Q H2). exact H1.
    + left. destruct (string_ltb a b) eqn:Q; [exact (T _ _ _ Q H2)|]. rewrite (E a b Q H1). exact H2.
    + destruct (string_ltb a c) eqn:Q; [left; reflexivity|]. right. split; [|lia].
      destruct (string_ltb c a) eqn:Q'; [|reflexivity]. exfalso.
      destruct (string_ltb a b) eqn:R; [rewrite (T _ _ _ Q' R) in H2; discriminate|]. pose proof (E a b R H1). subst b. congruence.
  - intros [a x] [b y]. cbn [fst snd]. rewrite !orb_false_iff, !andb_false_iff, !negb_false_iff, !Z.ltb_ge.
    intros [H1 H2] [H3 H4]. pose proof (E a b H1 H3). subst b. f_equal. rewrite I in H2, H4. destruct H2; [discriminate|]. destruct H4; [discriminate|]. lia.
Qed.

(** ** Maps *)
Section Maps.
Context {K V : Type}.
Variable ltb : K -> K -> bool.
Hypothesis O : strict ltb.
Notation ord m := (StronglySorted (fun a b => ltb a b = true) (map fst m)).
Lemma keys_upsert k f (m : list (K * V)) x : In x (map fst (upsert ltb k f m)) <-> x = k \/ In x (map fst m).
Proof.
  induction m as [|[k' v] m IH]; cbn [upsert]; [cbn; intuition|].
  destruct (ltb k k') eqn:A; [cbn [map fst In]; intuition|]. destruct (ltb k' k) eqn:B; cbn [map fst In].
  - rewrite IH. intuition.
  - pose proof (proj2 (proj2 O) _ _ A B). subst k'. intuition.
Qed.
Lemma ord_upsert k f (m : list (K * V)) : ord m -> ord (upsert ltb k f m).
Proof.
  induction m as [|[k' v] m IH]; cbn [upsert map fst]; intros S0; [repeat constructor|]. inversion S0 as [|? ? S1 F]; subst.
  destruct (ltb k k') eqn:A; [|destruct (ltb k' k) eqn:B]; cbn [map fst].
  - constructor; [exact S0|]. constructor; [exact A|]. eapply Forall_impl; [|exact F]. intros x X. cbv beta in *. exact (proj1 (proj2 O) _ _ _ A X).
  - constructor; [exact (IH S1)|]. apply Forall_forall. intros x X. apply keys_upsert in X as [->|X]; [exact B|]. rewrite Forall_forall in F. exact (F x X).
  - exact S0.
Qed.
Lemma get_out k (m : list (K * V)) : ord m -> ~ In k (map fst m) -> get ltb k m = None.
Proof.
  induction m as [|[k' v] m IH]; cbn [get map fst]; intros S0 N; [reflexivity|]. inversion S0; subst.
  destruct (ltb k k') eqn:A; [reflexivity|]. destruct (ltb k' k) eqn:B; [apply IH; [assumption|intros J; apply N; right; exact J]|].
  destruct N. left. symmetry. exact (proj2 (proj2 O) _ _ A B).
Qed.
Lemma get_upsert k f (m : list (K * V)) : ord m -> get ltb k (upsert ltb k f m) = Some (f (get ltb k m)).
Proof.
  induction m as [|[k' v] m IH]; cbn [upsert get map fst]; intros S0; [rewrite (proj1 O); reflexivity|]. inversion S0; subst.
  destruct (ltb k k') eqn:A; [|destruct (ltb k' k) eqn:B]; cbn [get]; rewrite ?(proj1 O), ?A, ?B; [reflexivity|apply IH; assumption|reflexivity].
Qed.
Lemma get_upsert_other k k' f (m : list (K * V)) : ord m -> k' <> k -> get ltb k (upsert ltb k' f m) = get ltb k m.
Proof.
  intros S0 N. induction m as [|[x v] m IH]; cbn [upsert get map fst] in *.
  - destruct (ltb k k') eqn:A; [reflexivity|]. destruct (ltb k' k) eqn:B; [reflexivity|]. destruct N. symmetry. exact (proj2 (proj2 O) _ _ A B).
  - inversion S0 as [|? ? S1 F]; subst. destruct (ltb k' x) eqn:A; [|destruct (ltb x k') eqn:B]; cbn [get].
    + destruct (ltb k k') eqn:C.
      * rewrite (proj1 (proj2 O) _ _ _ C A). reflexivity.
      * destruct (ltb k' k) eqn:D; [reflexivity|]. destruct N. symmetry. exact (proj2 (proj2 O) _ _ C D).
    + rewrite (IH S1). reflexivity.
    + pose proof (proj2 (proj2 O) _ _ A B). subst x. destruct (ltb k k') eqn:C; [reflexivity|]. destruct (ltb k' k) eqn:D; [reflexivity|].
      destruct N. symmetry. exact (proj2 (proj2 O) _ _ C D).
Qed.
Lemma ord_nodup (m : list K) : StronglySorted (fun a b => ltb a b = true) m -> NoDup m.
Proof.
  induction 1 as [|a l S0 IH F]; constructor; [|exact IH]. intros I. rewrite Forall_forall in F. specialize (F a I). cbv beta in F. rewrite (proj1 O) in F. discriminate.
Qed.
End Maps.

(** ** Grouping by a key *)
Section Group.
Context {box K : Type}.
Notation obj := (object box).
Variable ltb : K -> K -> bool.
Hypothesis O : strict ltb.
Variable key : obj -> K.
Notation ord m := (StronglySorted (fun a b => ltb a b = true) (map fst m)).
Lemma key_dec (a b : K) : {a = b} + {a <> b}.
Proof.
  destruct (ltb a b) eqn:A; [right; intros ->; rewrite (proj1 O) in A; discriminate|].
  destruct (ltb b a) eqn:B; [right; intros ->; rewrite (proj1 O) in B; discriminate|]. left. exact (proj2 (proj2 O) _ _ A B).
Qed.
Lemma fold_ord {V} (f : obj -> option V -> V) l : forall m, ord m -> ord (fold_left (fun m o => upsert ltb (key o) (f o) m) l m).
Proof. induction l as [|o l IH]; intros m S0; [exact S0|]. cbn [fold_left]. apply IH, ord_upsert; assumption. Qed.
Lemma fold_keys {V} (f : obj -> option V -> V) l : forall m k, In k (map fst (fold_left (fun m o => upsert ltb (key o) (f o) m) l m)) <->
  In k (map fst m) \/ exists o, In o l /\ key o = k.
Proof.
  induction l as [|o l IH]; intros m k; cbn [fold_left]; [split; [auto|intros [H|(o & [] & _)]; exact H]|].
  rewrite IH, (keys_upsert ltb O). split.
  - intros [[->|H]|(o' & I & E)]; [right; exists o; split; [left|]; reflexivity|left; exact H|right; exists o'; split; [right; exact I|exact E]].
  - intros [H|(o' & [<-|I] & E)]; [left; right; exact H|left; left; symmetry; exact E|right; exists o'; split; assumption].
Qed.
Lemma fold_get k l : forall m base, ord m -> or_empty (get ltb k m) = base ->
  exists l', selects (fun o => key o = k) l l' /\
    or_empty (get ltb k (fold_left (fun m o => upsert ltb (key o) (append_to o) m) l m)) = base ++ l'.
Proof.
  induction l as [|o l IH]; intros m base S0 E; cbn [fold_left]; [exists []; split; [constructor|rewrite app_nil_r; exact E]|].
  destruct (key_dec (key o) k) as [Q|N].
  - destruct (IH (upsert ltb (key o) (append_to o) m) (base ++ [o])) as (l' & Sl & El).
    + apply ord_upsert; assumption.
    + rewrite Q, (get_upsert ltb O) by exact S0. rewrite <- E. destruct (get ltb k m) as [v|]; reflexivity.
    + exists (o :: l'). split; [constructor; assumption|]. rewrite El, <- app_assoc. reflexivity.
  - destruct (IH (upsert ltb (key o) (append_to o) m) base) as (l' & Sl & El).
    + apply ord_upsert; assumption.
    + rewrite (get_upsert_other ltb O) by assumption. exact E.
    + exists l'. split; [constructor 3; assumption|exact El].
Qed.
Lemma keyed_get k l : selects (fun o => key o = k) l (or_empty (get ltb k (keyed ltb key l))).
Proof. destruct (fold_get k l [] [] ltac:(constructor) eq_refl) as (l' & Sl & E). unfold keyed. rewrite E. exact Sl. Qed.
Lemma key_set_spec l : StronglySorted (fun a b => ltb a b = true) (map fst (key_set ltb key l)) /\
  forall k, In k (map fst (key_set ltb key l)) <-> exists o, In o l /\ key o = k.
Proof.
  split; [apply (fold_ord (fun _ _ => tt)); constructor|]. intros k. unfold key_set. rewrite (fold_keys (fun _ _ => tt)). cbn [map In]. intuition.
Qed.
End Group.

(** ** The keys of the detection tools *)
Lemma camera_text_one c : exists a, camera_text c = String a EmptyString.
Proof. destruct c; eexists; reflexivity. Qed.
Lemma camera_text_inj c c' : camera_text c = camera_text c' -> c = c'.
Proof. destruct c, c'; intros [=]; reflexivity. Qed.
Lemma str_app_inj s : forall s' t t', String.length t = String.length t' -> (s ++ t = s' ++ t')%string -> s = s' /\ t = t'.
Proof.
  induction s as [|a s IH]; intros [|a' s'] t t' L E; cbn [append] in E.
  - split; [reflexivity|exact E].
  - subst t. cbn [String.length] in L. assert (Q : forall u v, String.length (u ++ v) = (String.length u + String.length v)%nat) by (induction u as [|x u IHu]; intros v; cbn [append String.length]; [reflexivity|rewrite IHu; reflexivity]).
    rewrite Q in L. lia.
  - subst t'. cbn [String.length] in L. assert (Q : forall u v, String.length (u ++ v) = (String.length u + String.length v)%nat) by (induction u as [|x u IHu]; intros v; cbn [append String.length]; [reflexivity|rewrite IHu; reflexivity]).
    rewrite Q in L. lia.
  - injection E as <- E. destruct (IH _ _ _ L E) as [<- <-]. split; reflexivity.
Qed.
Definition text_key (f : string * camera_name * Z) : string * Z := ((fst (fst f) ++ "_" ++ camera_text (snd (fst f)))%string, snd f).
Lemma text_key_inj f f' : text_key f = text_key f' -> f = f'.
Proof.
  destruct f as [[c k] t], f' as [[c' k'] t']. unfold text_key. cbn [fst snd]. intros E. injection E as E <-.
  assert (L : String.length (String "_" (camera_text k)) = String.length (String "_" (camera_text k'))) by (destruct k, k'; reflexivity).
  destruct (str_app_inj c c' _ _ L E) as [<- E']. injection E' as E'. apply camera_text_inj in E'. subst k'. reflexivity.
Qed.
Section Det.
Context {box : Type}.
Notation obj := (object box).
Lemma frame_key_text (o : obj) : frame_key o = text_key (frame_of o).
Proof. reflexivity. Qed.
Lemma selects_iff {A} (P Q : A -> Prop) l l' : (forall x, P x <-> Q x) -> selects P l l' -> selects Q l l'.
Proof. intros H. induction 1 as [|x l l' p S0 IH|x l l' p S0 IH]; constructor; try assumption; rewrite <- H; assumption. Qed.
Lemma Forall2_map_l {A B C} (f : A -> B) (R : B -> C -> Prop) l l' : Forall2 (fun a c => R (f a) c) l l' -> Forall2 R (map f l) l'.
Proof. induction 1; constructor; assumption. Qed.
Theorem examples_correct (pds gts : list obj) : exists frames,
  by_frame pds gts frames (fst (detection_examples pds gts)) (snd (detection_examples pds gts)) /\
  StronglySorted (fun a b => pair_ltb (text_key a) (text_key b) = true) frames.
Proof.
  destruct (key_set_spec pair_ltb strict_pair (frame_key (box := box)) (pds ++ gts)) as [S0 I0].
  set (all := map fst (key_set pair_ltb frame_key (pds ++ gts))) in *.
  assert (W : exists frames, map text_key frames = all).
  { clear S0. clearbody all. induction all as [|k all IH]; [exists []; reflexivity|].
    assert (Hk : exists f, text_key f = k) by (destruct (proj1 (I0 k) (or_introl eq_refl)) as (o & _ & E); exists (frame_of o); exact E).
    destruct Hk as (f & <-).
    assert (Hr : forall k, In k all -> exists f, text_key f = k) by (intros k I; destruct (proj1 (I0 k) (or_intror I)) as (o & _ & E); exists (frame_of o); exact E).
    clear IH I0. assert (G : exists fs, map text_key fs = all).
    { induction all as [|k all IH]; [exists []; reflexivity|]. destruct (Hr k (or_introl eq_refl)) as (g & <-).
      destruct IH as (fs & <-); [intros k I; apply Hr; right; exact I|]. exists (g :: fs). reflexivity. }
    destruct G as (fs & <-). exists (f :: fs). reflexivity. }
  destruct W as (frames & W). exists frames. split.
  - split; [|split; [|split]].
    + apply (NoDup_map_inv text_key). rewrite W. exact (ord_nodup pair_ltb strict_pair all S0).
    + intros k. split.
      * intros I. apply (in_map text_key) in I. rewrite W in I. apply I0 in I as (o & I & E). exists o. split; [apply in_app_or; exact I|]. apply text_key_inj. exact E.
      * intros (o & I & <-). assert (J : In (frame_key o) all) by (apply I0; exists o; split; [apply in_or_app; exact I|reflexivity]).
        rewrite <- W in J. apply in_map_iff in J as (f & E & J). rewrite frame_key_text in E. apply text_key_inj in E. subst f. exact J.
    + unfold detection_examples. cbn [fst]. fold all. rewrite <- W. rewrite map_map. clear. induction frames as [|f fs IH]; cbn [map]; constructor; [|exact IH].
      eapply selects_iff; [|apply (keyed_get pair_ltb strict_pair)]. intros o. cbv beta. rewrite frame_key_text. split; [apply text_key_inj|intros ->; reflexivity].
    + unfold detection_examples. cbn [snd]. fold all. rewrite <- W. rewrite map_map. clear. induction frames as [|f fs IH]; cbn [map]; constructor; [|exact IH].
      eapply selects_iff; [|apply (keyed_get pair_ltb strict_pair)]. intros o. cbv beta. rewrite frame_key_text. split; [apply text_key_inj|intros ->; reflexivity].
  - clear I0. rewrite <- W in S0. clear W. induction frames as [|f fs IH]; cbn [map] in S0; constructor; inversion S0 as [|? ? S1 F]; subst.
    + exact (IH S1).
    + rewrite Forall_map in F. exact F.
Qed.

(** Nothing is lost or repeated. *)
Lemma selects_split {A} (P Q : A -> Prop) l : forall l1 l2, selects P l l1 -> selects (fun x => ~ P x /\ Q x) l l2 ->
  forall l3, selects (fun x => P x \/ Q x) l l3 -> Permutation l3 (l1 ++ l2).
Proof.
  induction l as [|x l IH]; intros l1 l2 H1 H2 l3 H3; inversion H1; inversion H2; inversion H3; subst; try tauto.
  - constructor.
  - cbn [app]. constructor. eapply IH; eassumption.
  - apply Permutation_cons_app. eapply IH; eassumption.
  - eapply IH; eassumption.
Qed.
Lemma selects_fun {A} (P : A -> Prop) l : forall l1 l2, selects P l l1 -> selects P l l2 -> l1 = l2.
Proof.
  induction l as [|x l IH]; intros l1 l2 H1 H2; inversion H1; inversion H2; subst; try tauto; [f_equal|]; eapply IH; eassumption.
Qed.
Lemma selects_all {A} (P : A -> Prop) l : (forall x, In x l -> P x) -> selects P l l.
Proof. induction l as [|x l IH]; intros H; constructor; [apply H; left; reflexivity|]. apply IH. intros y I. apply H. right. exact I. Qed.
Lemma camera_dec (a b : camera_name) : {a = b} + {a <> b}.
Proof. decide equality. Qed.
Lemma frame_dec (a b : string * camera_name * Z) : {a = b} + {a <> b}.
Proof. decide equality; [apply Z.eq_dec|]. decide equality; [apply camera_dec|apply string_dec]. Qed.
Lemma selects_exists {A} (P : A -> Prop) (d : forall x, {P x} + {~ P x}) l : exists l', selects P l l'.
Proof. induction l as [|x l [l' IH]]; [exists []; constructor|]. destruct (d x); [exists (x :: l')|exists l']; constructor; assumption. Qed.
Lemma grouped_perm {B} (dec : forall a b : B, {a = b} + {a <> b}) (f : obj -> B) l : forall frames ps rest,
  NoDup frames -> Forall2 (fun k p => selects (fun o => f o = k) l p) frames ps -> selects (fun o => In (f o) frames) l rest ->
  Permutation rest (concat ps).
Proof.
  induction frames as [|k frames IH]; intros ps rest N F S0.
  - inversion F; subst. cbn [concat]. assert (rest = []) as ->; [|constructor]. apply (selects_fun (fun _ => False) l); [exact S0|]. clear. induction l; constructor; auto.
  - inversion F as [|? p ? ps' Sp F']; subst. inversion N as [|? ? N1 N2]; subst. cbn [concat].
    destruct (selects_exists (fun o => In (f o) frames) (fun o => in_dec dec (f o) frames) l) as (r & Sr).
    specialize (IH _ _ N2 F' Sr).
    assert (Sr' : selects (fun o => f o <> k /\ In (f o) frames) l r).
    { eapply selects_iff; [|exact Sr]. intros o. cbv beta. split; [intros I; split; [intros <-; exact (N1 I)|exact I]|intros [_ I]; exact I]. }
    eapply perm_trans; [|apply Permutation_app_head; exact IH].
    eapply (selects_split (fun o => f o = k) (fun o => In (f o) frames)); [exact Sp|exact Sr'|].
    eapply selects_iff; [|exact S0]. intros o. cbn [In]. cbv beta. split; intros [E|E]; auto.
Qed.
Theorem examples_complete (pds gts : list obj) :
  Permutation pds (concat (fst (detection_examples pds gts))) /\ Permutation gts (concat (snd (detection_examples pds gts))).
Proof.
  destruct (examples_correct pds gts) as (frames & (N & I & Fp & Fg) & _). split.
  - apply (grouped_perm frame_dec frame_of pds frames _ _ N Fp). apply selects_all. intros o J. apply I. exists o. split; [left; exact J|reflexivity].
  - apply (grouped_perm frame_dec frame_of gts frames _ _ N Fg). apply selects_all. intros o J. apply I. exists o. split; [right; exact J|reflexivity].
Qed.

(** ** The ground truths *)
Lemma set_level_graded (n : obj -> Z) (o : obj) : set_level (n o) o = graded n o.
Proof.
  unfold set_level, graded. destruct (level o) as [[]|] eqn:E; try (destruct o; cbn in *; rewrite E; reflexivity);
    destruct (Z_lt_dec 5 (n o)); destruct (Z.leb_spec (n o) 5); reflexivity || lia.
Qed.
Theorem detection_truths_correct (l : list obj) : exists kept, selects (fun o => 0 < points o) l kept /\ detection_truths l = map (graded points) kept.
Proof.
  induction l as [|o l (kept & S0 & E)]; [exists []; split; [constructor|reflexivity]|]. cbn [detection_truths]. destruct (Z.leb_spec (points o) 0).
  - exists kept. split; [constructor 3; [lia|exact S0]|exact E].
  - exists (o :: kept). split; [constructor; assumption|]. cbn [map]. rewrite E, <- set_level_graded. reflexivity.
Qed.
Lemma parse_camera_iff s : parse_camera s <> None <-> In s ["UNKNOWN"; "FRONT"; "FRONT_LEFT"; "FRONT_RIGHT"; "SIDE_LEFT"; "SIDE_RIGHT"; "REAR_LEFT"; "REAR"; "REAR_RIGHT"]%string.
Proof.
  unfold parse_camera. cbn [In].
  repeat match goal with |- context [String.eqb s ?x] => destruct (String.eqb_spec s x) as [->|] end; split; intros H; try congruence; auto 12;
  repeat (destruct H as [H|H]; [congruence|]); destruct H.
Qed.
Lemma with_level_visible (o : obj) : visible (set_level (top_points o) o) = visible o.
Proof. unfold set_level. destruct (level o) as [[]|]; reflexivity. Qed.
Definition evaluated (o : obj) : Prop := 0 < top_points o /\ is_visible o.
Theorem let_truths_correct (l : list obj) :
  ((forall o, In o l -> evaluated o -> names_camera o) ->
   exists kept, selects evaluated l kept /\ let_truths l = Ok (map (fun o => with_box (graded top_points o) (synced_box o)) kept)) /\
  (~ (forall o, In o l -> evaluated o -> names_camera o) -> let_truths l = Err CheckFailed).
Proof.
  induction l as [|o l [IH1 IH2]].
  - split; [intros _; exists []; split; [constructor|reflexivity]|]. intros N. destruct N. intros o [].
  - assert (Skip : ~ evaluated o -> let_truths (o :: l) = let_truths l ->
      ((forall x, In x (o :: l) -> evaluated x -> names_camera x) ->
       exists kept, selects evaluated (o :: l) kept /\ let_truths (o :: l) = Ok (map (fun o => with_box (graded top_points o) (synced_box o)) kept)) /\
      (~ (forall x, In x (o :: l) -> evaluated x -> names_camera x) -> let_truths (o :: l) = Err CheckFailed)).
    { intros N E. rewrite E. split.
      - intros A. destruct IH1 as (kept & S0 & E'); [intros x I; apply A; right; exact I|]. exists kept. split; [constructor 3; assumption|exact E'].
      - intros A. apply IH2. intros B. apply A. intros x [<-|I] V; [contradiction|exact (B x I V)]. }
    cbn [let_truths] in *. destruct (Z.leb_spec (top_points o) 0) as [L|L]; [apply Skip; [intros [V _]; lia|reflexivity]|].
    rewrite with_level_visible in *. destruct (visible o) as [s|] eqn:Ev; [|apply Skip; [intros [_ (s & E & _)]; congruence|reflexivity]].
    destruct (String.eqb_spec s "") as [->|Ns]; [apply Skip; [intros [_ (s & E & D)]; rewrite Ev in E; injection E as <-; exact (D eq_refl)|reflexivity]|].
    assert (V : evaluated o) by (split; [exact L|exists s; split; assumption]). clear Skip.
    pose proof (parse_camera_iff s) as P. destruct (parse_camera s) as [c|] eqn:Ec.
    + assert (Nm : names_camera o) by (exists s; split; [exact Ev|apply P; discriminate]). split.
      * intros A. destruct IH1 as (kept & S0 & E'); [intros x I; apply A; right; exact I|]. exists (o :: kept). split; [constructor; assumption|].
        rewrite E'. cbn [bind map]. rewrite (set_level_graded top_points). reflexivity.
      * intros A. rewrite IH2; [reflexivity|]. intros B. apply A. intros x [<-|I] W; [exact Nm|exact (B x I W)].
    + split; [|reflexivity]. intros A. destruct (A o (or_introl eq_refl) V) as (s' & E & I). rewrite Ev in E. injection E as <-. apply P in I. congruence.
Qed.
End Det.
