From Coq Require Import String Ascii Sorted Permutation OrderedTypeEx.
From Verif Require Import Base ResultLib ToolModel ToolSpec ToolProofs.
Open Scope list_scope.
Open Scope Z_scope.

Section Nested.
Context {V : Type}.
Notation nmap := (list (string * list (Z * V))).
Definition inner (c : string) (m : nmap) : list (Z * V) := or_empty (get string_ltb c m).
Definition inv (m : nmap) : Prop :=
  StronglySorted (fun a b => string_ltb a b = true) (map fst m) /\
  forall c, StronglySorted (fun a b => Z.ltb a b = true) (map fst (inner c m)).
Lemma inv_nil : inv [].
Proof. split; [constructor|]. intros c. constructor. Qed.
Lemma inner_same c t f m : inv m -> inner c (nested c t f m) = upsert Z.ltb t f (inner c m).
Proof. intros [S0 _]. unfold inner, nested. rewrite (get_upsert string_ltb strict_string) by exact S0. reflexivity. Qed.
Lemma inner_other c c' t f m : inv m -> c' <> c -> inner c (nested c' t f m) = inner c m.
Proof. intros [S0 _] N. unfold inner, nested. rewrite (get_upsert_other string_ltb strict_string) by assumption. reflexivity. Qed.
Lemma inv_nested c t f m : inv m -> inv (nested c t f m).
Proof.
  intros H. split; [apply (ord_upsert string_ltb strict_string), H|]. intros c'. destruct (string_dec c c') as [<-|N].
  - rewrite inner_same by exact H. apply (ord_upsert Z.ltb strict_Z), H.
  - rewrite inner_other by assumption. apply H.
Qed.
Lemma entry_inner m e : inv m -> In e m -> snd e = inner (fst e) m.
Proof.
  intros [S0 _] I. unfold inner. induction m as [|[k v] m IH]; [destruct I|]. cbn [map fst] in S0. inversion S0 as [|? ? S1 F]; subst.
  cbn [get]. destruct I as [<-|I]; cbn [fst snd].
  - rewrite (proj1 strict_string). reflexivity.
  - rewrite Forall_forall in F. pose proof (F (fst e) (in_map fst _ _ I)) as L. cbv beta in L.
    destruct (string_ltb (fst e) k) eqn:A; [pose proof (proj1 (proj2 strict_string) _ _ _ L A) as B; rewrite (proj1 strict_string) in B; discriminate|].
    rewrite L. exact (IH S1 I).
Qed.
End Nested.

Section Track.
Context {box : Type}.
Notation obj := (object box).
Lemma fold_inv {V} (f : obj -> option V -> V) (l : list obj) : forall m, inv m -> inv (fold_left (fun m o => nested (context o) (stamp o) (f o) m) l m).
Proof. induction l as [|o l IH]; intros m H; [exact H|]. cbn [fold_left]. apply IH, inv_nested, H. Qed.
Lemma fold_contexts {V} (f : obj -> option V -> V) (l : list obj) : forall m c,
  In c (map fst (fold_left (fun m o => nested (context o) (stamp o) (f o) m) l m)) <-> In c (map fst m) \/ exists o, In o l /\ context o = c.
Proof.
  induction l as [|o l IH]; intros m c; cbn [fold_left]; [split; [auto|intros [H|(o & [] & _)]; exact H]|].
  rewrite IH. unfold nested at 1. rewrite (keys_upsert string_ltb strict_string). split.
  - intros [[->|H]|(o' & I & E)]; [right; exists o; split; [left|]; reflexivity|left; exact H|right; exists o'; split; [right; exact I|exact E]].
  - intros [H|(o' & [<-|I] & E)]; [left; right; exact H|left; left; symmetry; exact E|right; exists o'; split; assumption].
Qed.
Lemma fold_times {V} (f : obj -> option V -> V) (l : list obj) : forall m c t, inv m ->
  (In t (map fst (inner c (fold_left (fun m o => nested (context o) (stamp o) (f o) m) l m))) <->
   In t (map fst (inner c m)) \/ exists o, In o l /\ context o = c /\ stamp o = t).
Proof.
  induction l as [|o l IH]; intros m c t H; cbn [fold_left]; [split; [auto|intros [A|(o & [] & _)]; exact A]|].
  rewrite IH by (apply inv_nested, H). destruct (string_dec (context o) c) as [<-|N].
  - rewrite inner_same by exact H. rewrite (keys_upsert Z.ltb strict_Z). split.
    + intros [[->|A]|(o' & I & E)]; [right; exists o; split; [left; reflexivity|split; reflexivity]|left; exact A|right; exists o'; split; [right; exact I|exact E]].
    + intros [A|(o' & [<-|I] & E1 & E2)]; [left; right; exact A|left; left; symmetry; exact E2|right; exists o'; split; [exact I|split; assumption]].
  - rewrite inner_other by assumption. split.
    + intros [A|(o' & I & E)]; [left; exact A|right; exists o'; split; [right; exact I|exact E]].
    + intros [A|(o' & [<-|I] & E1 & E2)]; [left; exact A|congruence|right; exists o'; split; [exact I|split; assumption]].
Qed.
Lemma fold_lookup c t (l : list obj) : forall m base, inv m -> lookup2 c t m = base ->
  exists l', selects (fun o => context o = c /\ stamp o = t) l l' /\
    lookup2 c t (fold_left (fun m o => nested (context o) (stamp o) (append_to o) m) l m) = base ++ l'.
Proof.
  induction l as [|o l IH]; intros m base H E; cbn [fold_left]; [exists []; split; [constructor|rewrite app_nil_r; exact E]|].
  destruct (string_dec (context o) c) as [Ec|Nc]; [destruct (Z.eq_dec (stamp o) t) as [Et|Nt]|].
  - destruct (IH (nested (context o) (stamp o) (append_to o) m) (base ++ [o])) as (l' & Sl & El).
    + apply inv_nested, H.
    + unfold lookup2. fold (inner c (nested (context o) (stamp o) (append_to o) m)). rewrite Ec, inner_same by exact H.
      rewrite Et, (get_upsert Z.ltb strict_Z) by apply H. unfold lookup2 in E. fold (inner c m) in E. rewrite <- E. destruct (get Z.ltb t (inner c m)); reflexivity.
    + exists (o :: l'). split; [constructor; [split; assumption|exact Sl]|]. rewrite El, <- app_assoc. reflexivity.
  - destruct (IH (nested (context o) (stamp o) (append_to o) m) base) as (l' & Sl & El).
    + apply inv_nested, H.
    + unfold lookup2. fold (inner c (nested (context o) (stamp o) (append_to o) m)). rewrite Ec, inner_same by exact H.
      rewrite (get_upsert_other Z.ltb strict_Z); [exact E|apply H|exact Nt].
    + exists l'. split; [constructor 3; [tauto|exact Sl]|exact El].
  - destruct (IH (nested (context o) (stamp o) (append_to o) m) base) as (l' & Sl & El).
    + apply inv_nested, H.
    + unfold lookup2. fold (inner c (nested (context o) (stamp o) (append_to o) m)). rewrite inner_other by assumption. exact E.
    + exists l'. split; [constructor 3; [tauto|exact Sl]|exact El].
Qed.
Lemma lookup_selects c t (l : list obj) : selects (fun o => context o = c /\ stamp o = t) l (lookup2 c t (tracking_map l)).
Proof. destruct (fold_lookup c t l [] [] inv_nil eq_refl) as (l' & Sl & E). unfold tracking_map. rewrite E. exact Sl. Qed.
Theorem tracking_correct (pds gts : list obj) : exists contexts,
  StronglySorted (fun a b => string_ltb a b = true) contexts /\ NoDup contexts /\
  (forall c, In c contexts <-> exists o, (In o pds \/ In o gts) /\ context o = c) /\
  length (fst (tracking_tool pds gts)) = length contexts /\ length (snd (tracking_tool pds gts)) = length contexts /\
  Forall2 (fun c pg => sequence_of pds gts c (fst pg) (snd pg)) contexts (combine (fst (tracking_tool pds gts)) (snd (tracking_tool pds gts))).
Proof.
  set (all := tracking_keys (pds ++ gts)).
  assert (H : inv all) by (apply (fold_inv (fun _ _ => tt)), inv_nil).
  exists (map fst all). split; [apply H|]. split; [apply (ord_nodup string_ltb strict_string), H|]. split; [|split; [|split]].
  - intros c. unfold all, tracking_keys. rewrite (fold_contexts (fun _ _ => tt)). cbn [map In]. split.
    + intros [[]|(o & I & E)]. exists o. split; [apply in_app_or; exact I|exact E].
    + intros (o & I & E). right. exists o. split; [apply in_or_app; exact I|exact E].
  - unfold tracking_tool. cbn [fst]. fold all. rewrite !map_length. reflexivity.
  - unfold tracking_tool. cbn [snd]. fold all. rewrite !map_length. reflexivity.
  - unfold tracking_tool. cbn [fst snd]. fold all.
    assert (G : forall sub, (forall e, In e sub -> In e all) -> Forall2 (fun c pg => sequence_of pds gts c (fst pg) (snd pg)) (map fst sub)
      (combine (map (fun e => map (fun t => lookup2 (fst e) (fst t) (tracking_map pds)) (snd e)) sub) (map (fun e => map (fun t => lookup2 (fst e) (fst t) (tracking_map gts)) (snd e)) sub))).
    { induction sub as [|e sub IH]; intros I; cbn [map combine]; constructor; [|apply IH; intros x X; apply I; right; exact X]. cbn [fst snd].
      pose proof (entry_inner all e H (I e (or_introl eq_refl))) as Q. exists (map fst (snd e)). split; [|split; [|split]].
      - rewrite Q. pose proof (proj2 H (fst e)) as S0. clear -S0. induction S0 as [|a l S0 IH F]; constructor; [exact IH|]. eapply Forall_impl; [|exact F]. intros x. cbv beta. apply Z.ltb_lt.
      - intros t. rewrite Q. unfold all, tracking_keys. rewrite (fold_times (fun _ _ => tt)) by exact inv_nil. cbn. split.
        + intros [[]|(o & J & E)]. exists o. split; [apply in_app_or; exact J|exact E].
        + intros (o & J & E). right. exists o. split; [apply in_or_app; exact J|exact E].
      - clear. induction (snd e) as [|t ts IH]; cbn [map]; constructor; [apply lookup_selects|exact IH].
      - clear. induction (snd e) as [|t ts IH]; cbn [map]; constructor; [apply lookup_selects|exact IH]. }
    apply G. auto.
Qed.
(** Objects of different cameras at the same time end up in one frame, and ground truths without
    points are kept. *)
Theorem tracking_mixes_cameras (b : box) : exists pds gts : list obj,
  (exists p g, In p pds /\ In g gts /\ camera p <> camera g /\ points g = 0 /\ tracking_tool pds gts = ([[[p]]], [[[g]]])) /\
  detection_tool pds gts = ([pds], [[]]).
Proof.
  set (p := {| context := "c"; stamp := 0; camera := FRONT; points := 0; top_points := 0; level := None; visible := None; label_box := b; synced_box := b; score := 1%Q |}).
  set (g := {| context := "c"; stamp := 0; camera := REAR; points := 0; top_points := 0; level := None; visible := None; label_box := b; synced_box := b; score := 1%Q |}).
  exists [p], [g]. split; [|reflexivity]. exists p, g. split; [left; reflexivity|]. split; [left; reflexivity|]. split; [discriminate|]. split; reflexivity.
Qed.
End Track.
Section Final.
Context {box : Type}.
Notation obj := (object box).
Theorem detection_tool_correct (pds gts : list obj) : exists kept frames,
  selects (fun o => 0 < points o) gts kept /\
  by_frame pds (map (graded points) kept) frames (fst (detection_tool pds gts)) (snd (detection_tool pds gts)).
Proof.
  destruct (detection_truths_correct gts) as (kept & S0 & E). destruct (examples_correct pds (detection_truths gts)) as (frames & B & _).
  exists kept, frames. split; [exact S0|]. unfold detection_tool. rewrite <- E. exact B.
Qed.
Theorem detection_tool_complete (pds gts : list obj) : exists kept,
  selects (fun o => 0 < points o) gts kept /\
  Permutation pds (concat (fst (detection_tool pds gts))) /\ Permutation (map (graded points) kept) (concat (snd (detection_tool pds gts))).
Proof.
  destruct (detection_truths_correct gts) as (kept & S0 & E). exists kept. split; [exact S0|]. rewrite <- E. apply examples_complete.
Qed.
Theorem let_tool_correct (pds gts : list obj) : (forall o, In o gts -> 0 < top_points o -> is_visible o -> names_camera o) ->
  exists kept frames ps gs, let_tool pds gts = Ok (ps, gs) /\
    selects (fun o => 0 < top_points o /\ is_visible o) gts kept /\
    by_frame pds (map (fun o => with_box (graded top_points o) (synced_box o)) kept) frames ps gs.
Proof.
  intros H. destruct (proj1 (let_truths_correct gts)) as (kept & S0 & E); [intros o I [V W]; exact (H o I V W)|].
  destruct (examples_correct pds (map (fun o => with_box (graded top_points o) (synced_box o)) kept)) as (frames & B & _).
  unfold let_tool. rewrite E. cbn [bind]. destruct (detection_examples pds _) as [ps gs]. exists kept, frames, ps, gs. split; [reflexivity|]. split; [exact S0|exact B].
Qed.
Theorem let_tool_fails (pds gts : list obj) : ~ (forall o, In o gts -> 0 < top_points o -> is_visible o -> names_camera o) ->
  let_tool pds gts = Err CheckFailed.
Proof.
  intros H. unfold let_tool. rewrite (proj2 (let_truths_correct gts)); [reflexivity|]. intros A. apply H. intros o I V W. apply (A o I). split; assumption.
Qed.
End Final.
