(** Proofs about drawings of scenarios. *)
From Coq Require Import Reals String List ZArith Lia Lra.
From Verif Require Import Base ResultLib PlotModel VizModel VizSpec.
Import ListNotations.
Open Scope R_scope.

(** Boxes. *)
Lemma deg_back a : rad2deg a * PI / 180 = a.
Proof. unfold rad2deg. field. apply Rgt_not_eq, PI_RGT_0. Qed.
Lemma abs_half z h : Rabs z <= h / 2 <-> 0 <= z + h / 2 <= h.
Proof. unfold Rabs. destruct (Rcase_abs z); split; intros H; lra. Qed.
Lemma sc1 a : cos a * cos a + sin a * sin a = 1.
Proof. pose proof (sin2_cos2 a) as H. unfold Rsqr in H. lra. Qed.
Lemma patch_covers o r : get_bbox_patch o = Ok r -> forall q, covered r q <-> in_box o q.
Proof.
  unfold get_bbox_patch. destruct (item_at WAYMO_COLORS (color_idx o)) as [c|e]; cbn [bind]; [|discriminate].
  intros E q. injection E as <-. unfold covered, in_box. cbn [corner side_x side_y angle fst snd].
  rewrite deg_back. rewrite !abs_half. destruct q as [qx qy]. cbn [fst snd].
  pose proof (sc1 (yaw o)) as T. set (c' := cos (yaw o)) in *. set (s := sin (yaw o)) in *. clearbody c' s.
  set (X := x o). set (Y := y o). set (L := len o). set (W := wid o). clearbody X Y L W. split.
  - intros (u & v & Hu & Hv & E1 & E2). 
    replace ((qx - X) * c' + (qy - Y) * s + L / 2) with u.
    2:{ rewrite E1, E2. transitivity (u * (c' * c' + s * s) - L / 2 * (c' * c' + s * s) + L / 2); [rewrite T; lra|field]. }
    replace (- (qx - X) * s + (qy - Y) * c' + W / 2) with v.
    2:{ rewrite E1, E2. transitivity (v * (c' * c' + s * s) - W / 2 * (c' * c' + s * s) + W / 2); [rewrite T; lra|field]. }
    split; assumption.
  - intros [H1 H2]. eexists; eexists. split; [exact H1|]. split; [exact H2|]. split.
    + transitivity (X + (qx - X) * (c' * c' + s * s)); [rewrite T; lra|field].
    + transitivity (Y + (qy - Y) * (c' * c' + s * s)); [rewrite T; lra|field].
Qed.

Lemma item_at_ok {A} (l : list A) i k v : nth_error l k = Some v -> (i = Z.of_nat k \/ i = Z.of_nat k - Z.of_nat (List.length l))%Z -> item_at l i = Ok v.
Proof.
  intros E H. assert (B : (k < List.length l)%nat) by (apply nth_error_Some; congruence). unfold item_at.
  replace (Z.to_nat (if (i <? 0)%Z then i + Z.of_nat (List.length l) else i)%Z) with k.
  - rewrite E. replace (i + Z.of_nat (List.length l) <? 0)%Z with false; [reflexivity|]. symmetry. apply Z.ltb_ge. lia.
  - destruct (i <? 0)%Z eqn:N; [apply Z.ltb_lt in N|apply Z.ltb_ge in N]; lia.
Qed.
Lemma item_at_err {A} (l : list A) i : (i < - Z.of_nat (List.length l) \/ Z.of_nat (List.length l) <= i)%Z -> item_at l i = Err IndexError.
Proof.
  intros H. unfold item_at. destruct (nth_error l _) as [v|] eqn:E; [|reflexivity].
  assert (B : (Z.to_nat (if (i <? 0)%Z then i + Z.of_nat (List.length l) else i)%Z < List.length l)%nat) by (apply nth_error_Some; congruence).
  replace (i + Z.of_nat (List.length l) <? 0)%Z with true; [reflexivity|]. symmetry. apply Z.ltb_lt.
  destruct (i <? 0)%Z eqn:N; [apply Z.ltb_lt in N|apply Z.ltb_ge in N]; lia.
Qed.
Lemma waymo_nth k : nth_error WAYMO_COLORS k = option_map (fun c => let '(r, g, b) := c in (r / 255, g / 255, b / 255)) (nth_error palette k).
Proof. unfold WAYMO_COLORS. rewrite nth_error_map. reflexivity. Qed.
Lemma picks_ok i c : picks i c -> item_at WAYMO_COLORS i = Ok c.
Proof.
  intros (k & r & g & b & E & H & ->). apply item_at_ok with k; [rewrite waymo_nth, E; reflexivity|]. unfold WAYMO_COLORS. rewrite map_length. exact H.
Qed.
Lemma valid_picks i : valid_color i -> exists c, picks i c.
Proof.
  intros H. destruct (nth_error palette (Z.to_nat (i mod 6)%Z)) as [[[r g] b]|] eqn:E.
  - exists (r / 255, g / 255, b / 255). exists (Z.to_nat (i mod 6)%Z), r, g, b. split; [exact E|]. split; [|reflexivity].
    unfold valid_color in H. pose proof (Z.mod_pos_bound i 6 ltac:(lia)) as B. pose proof (Z.div_mod i 6 ltac:(lia)) as D. rewrite Z2Nat.id by lia.
    assert ((i / 6 = 0 \/ i / 6 = -1)%Z) by lia. lia.
  - exfalso. apply nth_error_None in E. pose proof (Z.mod_pos_bound i 6 ltac:(lia)) as B. unfold palette in E. cbn [List.length] in E. lia.
Qed.
Lemma picks_valid i c : picks i c -> valid_color i.
Proof.
  intros (k & r & g & b & E & H & _). assert (B : (k < List.length palette)%nat) by (apply nth_error_Some; congruence).
  unfold palette in B. cbn [List.length] in B. unfold valid_color. lia.
Qed.
(** The color of an index, and no other. *)
Theorem color_once : forall i c c', picks i c -> picks i c' -> c = c'.
Proof. intros i c c' H H'. apply picks_ok in H, H'. congruence. Qed.
Lemma waymo_invalid i : ~ valid_color i -> item_at WAYMO_COLORS i = Err IndexError.
Proof. intros H. apply item_at_err. unfold valid_color in H. unfold WAYMO_COLORS. rewrite map_length. cbn [List.length]. lia. Qed.

(** The box of an object. *)
Theorem patch_of : forall o, valid_color (color_idx o) -> exists r, get_bbox_patch o = Ok r /\ box_of o r.
Proof.
  intros o H. destruct (valid_picks _ H) as [c P]. pose proof (picks_ok _ _ P) as E.
  destruct (get_bbox_patch o) as [r|e] eqn:G.
  - exists r. split; [reflexivity|]. split; [apply patch_covers; exact G|].
    unfold get_bbox_patch in G. rewrite E in G. cbn [bind] in G. injection G as <-. cbn [color alpha side_x side_y].
    split; [exact P|]. split; [unfold BBOX_ALPHA; lra|]. split; reflexivity.
  - unfold get_bbox_patch in G. rewrite E in G. discriminate G.
Qed.
Theorem patch_fails : forall o, ~ valid_color (color_idx o) -> get_bbox_patch o = Err IndexError.
Proof. intros o H. unfold get_bbox_patch. rewrite (waymo_invalid _ H). reflexivity. Qed.

(** All objects: drawn up to the first with a bad color. *)
Lemma add_all_spec os : forall a,
  exists good, incl good os /\ exists rs, Forall2 box_of good rs
  /\ fst (add_all_current_objects a os) = {| axis_lines := axis_lines a; patches := patches a ++ rs |}
  /\ ((good = os /\ snd (add_all_current_objects a os) = Ok rs)
      \/ (exists bad rest, os = good ++ bad :: rest /\ ~ valid_color (color_idx bad) /\ snd (add_all_current_objects a os) = Err IndexError)).
Proof.
  induction os as [|o os IH]; intros a; cbn [add_all_current_objects].
  - exists []. split; [apply incl_refl|]. exists []. split; [constructor|]. cbn [fst snd]. rewrite app_nil_r. destruct a; split; [reflexivity|left; split; reflexivity].
  - assert (D : valid_color (color_idx o) \/ ~ valid_color (color_idx o)) by (unfold valid_color; lia). destruct D as [V|V].
    + destruct (patch_of o V) as (r & -> & B).
      destruct (IH {| axis_lines := axis_lines a; patches := patches a ++ [r] |}) as (good & Hi & rs & F & E & C).
      destruct (add_all_current_objects {| axis_lines := axis_lines a; patches := patches a ++ [r] |} os) as [a' res]. cbn [fst snd axis_lines patches] in *.
      exists (o :: good). split; [intros z [->|Hz]; [left; reflexivity|right; apply Hi; exact Hz]|]. exists (r :: rs). split; [constructor; assumption|].
      split; [rewrite E; rewrite <- app_assoc; reflexivity|]. destruct C as [[-> ->]|(bad & rest & -> & N & ->)]; [left|right].
      * split; reflexivity.
      * exists bad, rest. split; [reflexivity|]. split; [exact N|reflexivity].
    + rewrite (patch_fails o V). exists []. split; [intros z []|]. exists []. split; [constructor|]. cbn [fst snd]. rewrite app_nil_r. destruct a; split; [reflexivity|].
      right. exists o, os. split; [reflexivity|]. split; [exact V|reflexivity].
Qed.
Theorem objects_added : forall a os, Forall (fun o => valid_color (color_idx o)) os ->
  exists rs, add_all_current_objects a os = ({| axis_lines := axis_lines a; patches := patches a ++ rs |}, Ok rs) /\ Forall2 box_of os rs.
Proof.
  intros a os H. destruct (add_all_spec os a) as (good & Hi & rs & F & E & C). destruct (add_all_current_objects a os) as [a' res]. cbn [fst snd] in *. subst a'.
  destruct C as [[-> ->]|(bad & rest & -> & N & _)]; [exists rs; split; [reflexivity|exact F]|].
  exfalso. apply N. rewrite Forall_forall in H. apply H. apply in_or_app. right. left. reflexivity.
Qed.
Theorem objects_fail : forall a good bad rest, Forall (fun o => valid_color (color_idx o)) good -> ~ valid_color (color_idx bad) ->
  exists rs, add_all_current_objects a (good ++ bad :: rest) = ({| axis_lines := axis_lines a; patches := patches a ++ rs |}, Err IndexError) /\ Forall2 box_of good rs.
Proof.
  intros a good bad rest H N. revert a. induction H as [|o good V H IH]; intros a; cbn [app add_all_current_objects].
  - rewrite (patch_fails bad N). exists []. rewrite app_nil_r. destruct a. split; [reflexivity|constructor].
  - destruct (patch_of o V) as (r & -> & B). destruct (IH {| axis_lines := axis_lines a; patches := patches a ++ [r] |}) as (rs & -> & F).
    exists (r :: rs). cbn [axis_lines patches bind]. rewrite <- app_assoc. split; [reflexivity|constructor; assumption].
Qed.

(** Removal. *)
Lemma remove_at_length {A} (l : list A) : forall i, (i < List.length l)%nat -> List.length (remove_at i l) = pred (List.length l).
Proof.
  induction l as [|a l IH]; intros i H; [cbn [List.length] in H; lia|]. destruct i as [|i]; cbn [remove_at List.length]; [reflexivity|].
  cbn [List.length] in H. rewrite IH by lia. destruct l; cbn [List.length] in *; lia.
Qed.
Lemma shrinking_shorter {A} fuel : forall i (l : list A), (List.length (shrinking_pass fuel i l) <= List.length l)%nat.
Proof.
  induction fuel as [|fuel IH]; intros i l; cbn [shrinking_pass]; [lia|]. destruct (Nat.ltb i (List.length l)) eqn:E; [|lia].
  apply Nat.ltb_lt in E. specialize (IH (S i) (remove_at i l)). rewrite remove_at_length in IH by exact E. lia.
Qed.
Lemma shrinking_strict {A} (l : list A) : l <> [] -> (List.length (shrinking_pass (List.length l) 0 l) < List.length l)%nat.
Proof.
  destruct l as [|a l]; [congruence|]. intros _. cbn [List.length shrinking_pass]. replace (Nat.ltb 0 (S (List.length l))) with true by reflexivity. cbn [remove_at].
  pose proof (shrinking_shorter (List.length l) 1 l). lia.
Qed.
Lemma copying_all {A} (l : list A) : copying_pass l = [].
Proof. unfold copying_pass. assert (H : forall m : list A, List.length m = List.length l -> fold_left (fun rest _ => remove_at 0 rest) l m = []).
  { induction l as [|a l IH]; intros m H; destruct m as [|b m]; cbn [List.length fold_left remove_at] in *; try discriminate; [reflexivity|]. apply IH. lia. }
  apply H. reflexivity.
Qed.
Lemma iter_short {A} (f : list A -> list A) : f [] = [] -> (forall l, l <> [] -> (List.length (f l) < List.length l)%nat) ->
  forall n l, (List.length (Nat.iter n f l) <= List.length l - n)%nat.
Proof.
  intros H0 H n. induction n as [|n IH]; intros l; [cbn; lia|]. change (Nat.iter (S n) f l) with (f (Nat.iter n f l)). specialize (IH l).
  destruct (Nat.iter n f l) as [|a m] eqn:E; [rewrite H0; cbn [List.length]; lia|]. pose proof (H (a :: m) ltac:(discriminate)). lia.
Qed.
(** Everything is removed. *)
Theorem all_removed : forall (A : Type) copies (l : list A), remove_patches copies l = [].
Proof.
  intros A copies l. apply length_zero_iff_nil. unfold remove_patches.
  pose proof (iter_short (fun l : list A => if copies then copying_pass l else shrinking_pass (List.length l) 0 l)) as H.
  specialize (H ltac:(destruct copies; reflexivity)). assert (G : forall m : list A, m <> [] -> (List.length (if copies then copying_pass m else shrinking_pass (List.length m) 0 m) < List.length m)%nat).
  { intros m N. destruct copies; [|apply shrinking_strict; exact N]. rewrite copying_all. destruct m; [congruence|cbn [List.length]; lia]. }
  specialize (H G (List.length l) l). lia.
Qed.
(** One pass over the shrinking list keeps every second one. *)
Theorem one_pass_refuted : exists l : list nat, shrinking_pass (List.length l) 0 l = [2; 4]%nat /\ l = [1; 2; 3; 4]%nat.
Proof. exists [1; 2; 3; 4]%nat. split; reflexivity. Qed.

(** Frames. *)
Lemma column_frame states t os : frame states t os -> column states t = Ok os.
Proof.
  intros H. unfold column. induction H as [|row o states os E H IH]; [reflexivity|]. cbn [mapM]. rewrite E. cbn [bind]. rewrite IH. reflexivity.
Qed.
Theorem frame_shown : forall copies states a t os, frame states t os -> Forall (fun o => valid_color (color_idx o)) os ->
  exists rs, animate copies states a t = ({| axis_lines := axis_lines a; patches := rs |}, Ok rs) /\ Forall2 box_of os rs.
Proof.
  intros copies states a t os F V. unfold animate. rewrite (column_frame _ _ _ F), all_removed.
  destruct (objects_added {| axis_lines := axis_lines a; patches := [] |} os V) as (rs & E & B). exists rs. rewrite E. split; [reflexivity|exact B].
Qed.
Lemma animate_lines copies states a t : axis_lines (fst (animate copies states a t)) = axis_lines a.
Proof.
  unfold animate. destruct (column states t) as [os|e]; [|reflexivity].
  destruct (add_all_spec os {| axis_lines := axis_lines a; patches := remove_patches copies (patches a) |}) as (g & _ & rs & _ & -> & _). reflexivity.
Qed.
Lemma play_lines copies states frames : forall a, axis_lines (play copies states a frames) = axis_lines a.
Proof. induction frames as [|t frames IH]; intros a; cbn [play]; [reflexivity|]. rewrite IH. apply animate_lines. Qed.
Lemma play_app copies states f1 : forall a f2, play copies states a (f1 ++ f2) = play copies states (play copies states a f1) f2.
Proof. induction f1 as [|t f1 IH]; intros a f2; cbn [app play]; [reflexivity|apply IH]. Qed.

(** Maps. *)
Lemma add_feature a f :
  match drawn_line f with
  | None => add_map_feature a f = Ok a
  | Some ([], _) => add_map_feature a f = Err ValueError
  | Some pa => exists l, add_map_feature a f = Ok {| axis_lines := axis_lines a ++ [l]; patches := patches a |} /\ line_of pa l
  end.
Proof.
  unfold add_map_feature, drawn_line. destruct (data f) eqn:E; try reflexivity; match goal with ps : list pt |- _ => destruct ps as [|q ps'] end; try reflexivity;
    cbn [add_polyline]; (eexists; split; [reflexivity|]; unfold line_of; cbn [line_points line_alpha line_color fst snd];
    split; [reflexivity|]; split; [unfold ROAD_EDGE_ALPHA, ROAD_LINE_ALPHA; lra|reflexivity]).
Qed.
Theorem map_drawn : forall a fs, (forall f al, In f fs -> drawn_line f <> Some ([], al)) ->
  exists ls, add_map a fs = Ok {| axis_lines := axis_lines a ++ ls; patches := patches a |} /\ Forall2 line_of (map_lines fs) ls.
Proof.
  intros a fs. revert a. unfold add_map, map_lines. induction fs as [|f fs IH]; intros a H; cbn [foldM map concat].
  - exists []. rewrite app_nil_r. destruct a. split; [reflexivity|constructor].
  - pose proof (add_feature a f) as E. pose proof (H f) as Hf. destruct (drawn_line f) as [[[|q ps] al]|].
    + exfalso. apply (Hf al); [left; reflexivity|reflexivity].
    + destruct E as (l & -> & L). cbn [bind app]. destruct (IH {| axis_lines := axis_lines a ++ [l]; patches := patches a |}) as (ls & -> & F).
      { intros g al' Hg. apply H. right. exact Hg. }
      exists (l :: ls). cbn [axis_lines patches]. rewrite <- app_assoc. split; [reflexivity|constructor; assumption].
    + rewrite E. cbn [bind app]. apply IH. intros g al' Hg. apply H. right. exact Hg.
Qed.
Theorem map_fails : forall a fs f al, In f fs -> drawn_line f = Some ([], al) -> add_map a fs = Err ValueError.
Proof.
  intros a fs. revert a. unfold add_map. induction fs as [|g fs IH]; intros a f al H E; [destruct H|]. cbn [foldM].
  pose proof (add_feature a g) as D. destruct H as [->|H].
  - rewrite E in D. rewrite D. reflexivity.
  - destruct (drawn_line g) as [[[|q ps] al']|]; [rewrite D; reflexivity|destruct D as (l & -> & _)|rewrite D]; cbn [bind]; apply (IH _ f al H E).
Qed.

(** The animation. *)
Theorem animation_shows : forall copies fs states a frames t os,
  (forall f al, In f fs -> drawn_line f <> Some ([], al)) -> frame states t os -> Forall (fun o => valid_color (color_idx o)) os ->
  exists ls rs, get_animated_states copies fs states a (frames ++ [t]) = Ok {| axis_lines := axis_lines a ++ ls; patches := rs |}
    /\ Forall2 line_of (map_lines fs) ls /\ Forall2 box_of os rs.
Proof.
  intros copies fs states a frames t os M F V. unfold get_animated_states. destruct (map_drawn a fs M) as (ls & -> & L). cbn [bind].
  rewrite play_app. cbn [play]. set (b := play copies states _ frames).
  destruct (frame_shown copies states b t os F V) as (rs & -> & B). exists ls, rs. cbn [fst].
  replace (axis_lines b) with (axis_lines a ++ ls) by (unfold b; rewrite play_lines; reflexivity). split; [reflexivity|]. split; assumption.
Qed.
(** A road line without points stops the map. *)
Theorem empty_line_refuted : exists fs, (exists f ps, In f fs /\ drawn_line f = Some (ps, 1) /\ ps <> []) /\ forall a, add_map a fs = Err ValueError.
Proof.
  exists [ {| feature_id := 1%Z; data := RoadLine 1%Z [] |}; {| feature_id := 2%Z; data := RoadEdge 1%Z [(0, 0)] |} ]. split.
  - eexists; eexists. split; [right; left; reflexivity|]. split; [reflexivity|discriminate].
  - intros a. eapply map_fails; [left; reflexivity|reflexivity].
Qed.
(** The center of an object is covered. *)
Theorem center_covered : forall o r, get_bbox_patch o = Ok r -> 0 <= len o -> 0 <= wid o -> covered r (x o, y o).
Proof.
  intros o r E HL HW. apply (patch_covers o r E). unfold in_box. cbn [fst snd]. rewrite !Rminus_eq_0.
  rewrite Ropp_0, !Rmult_0_l, !Rplus_0_r, Rabs_R0. split; lra.
Qed.
