(** Proofs about plots of maps. *)
From Coq Require Import String Lia.
From Verif Require Import Base ResultLib PlotModel PlotSpec.
Open Scope list_scope.
Open Scope Z_scope.

(** ** Colors *)
Ltac styles := unfold has_color, has_dash, white_line, yellow_line, edge_line, broken_line; cbn [In line_dict fst snd].
Lemma table_color t : has_color t (fst (line_dict t)).
Proof. styles. destruct t; repeat (split; [intros H; repeat (destruct H as [H|H]; [discriminate|]); (contradiction || discriminate || reflexivity)|]); intros H; (discriminate || reflexivity). Qed.
Lemma table_dash t : has_dash t (snd (line_dict t)).
Proof. styles. destruct t; (split; [intros H; repeat (destruct H as [H|H]; [discriminate|]); (contradiction || reflexivity)|intros H; (reflexivity || (exfalso; apply H; tauto))]). Qed.
Theorem color_unique t c c' : has_color t c -> has_color t c' -> c = c'.
Proof.
  styles. intros H H'. destruct H as (A1 & A2 & A3 & A4 & A5 & A6 & A7 & A8 & A9 & A10 & A11). destruct H' as (B1 & B2 & B3 & B4 & B5 & B6 & B7 & B8 & B9 & B10 & B11).
  destruct t; first [rewrite A1, B1 by tauto; reflexivity|rewrite A2, B2 by tauto; reflexivity|rewrite A3, B3 by tauto; reflexivity|rewrite A4, B4 by tauto; reflexivity|rewrite A5, B5 by tauto; reflexivity
    |rewrite A6, B6 by tauto; reflexivity|rewrite A7, B7 by tauto; reflexivity|rewrite A8, B8 by tauto; reflexivity|rewrite A9, B9 by tauto; reflexivity|rewrite A10, B10 by tauto; reflexivity|rewrite A11, B11 by tauto; reflexivity].
Qed.
Theorem dash_unique t d d' : has_dash t d -> has_dash t d' -> d = d'.
Proof.
  intros [A B] [A' B']. assert (D : broken_line t \/ ~ broken_line t).
  { unfold broken_line. cbn [In]. destruct t; (left; tauto) || (right; intros H; repeat (destruct H as [H|H]; [discriminate|]); contradiction). }
  destruct D as [D|D]; [rewrite A, A' by exact D|rewrite B, B' by exact D]; reflexivity.
Qed.

Section P.
Context {P : Type}.
Implicit Types (pts g : list (P * feature_type * Z)) (fs : list (map_feature P)).

(** ** Stretches *)
Definition one_id (i : Z) g : Prop := g <> [] /\ Forall (fun e => id_of e = i) g.
Inductive grouped : list (list (P * feature_type * Z)) -> Prop :=
| grouped_nil : grouped []
| grouped_cons g gs i : one_id i g -> (forall g' gs' e, gs = g' :: gs' -> hd_error g' = Some e -> id_of e <> i) -> grouped gs -> grouped (g :: gs).

Lemma advance_group i g : forall rest, Forall (fun e => id_of e = i) g -> (forall e rest', rest = e :: rest' -> id_of e <> i) -> advance i (g ++ rest) = (g, rest).
Proof.
  induction g as [|e g IH]; intros rest F D; cbn [app].
  - destruct rest as [|e r]; [reflexivity|]. cbn [advance]. destruct (Z.eqb_spec (id_of e) i) as [E|E]; [exfalso; apply (D e r eq_refl E)|reflexivity].
  - inversion F; subst. cbn [advance]. rewrite Z.eqb_refl. rewrite IH by assumption. reflexivity.
Qed.
Lemma loop_groups gs : grouped gs -> forall fuel e, hd_error (concat gs) = Some e -> (List.length (concat gs) <= fuel)%nat ->
  exists ts, trace_loop fuel (concat gs) (type_of e) (id_of e) = Ok ts /\ Forall2 (fun g tr => exists e, hd_error g = Some e /\ tr = make_trace g (type_of e)) gs ts.
Proof.
  induction 1 as [|g gs i [NE F] D G IH]; intros fuel e HD L; [discriminate|]. cbn [concat] in *. destruct g as [|e0 g]; [congruence|]. cbn [app hd_error] in HD. injection HD as <-.
  inversion F as [|? ? E0 F']; subst. destruct fuel as [|fuel]; [cbn in L; lia|]. cbn [trace_loop]. change (e0 :: g ++ concat gs) with ((e0 :: g) ++ concat gs).
  cbn [app]. change (e0 :: g ++ concat gs) with ((e0 :: g) ++ concat gs). rewrite advance_group; [|exact F|].
  2:{ intros e rest' E. destruct G as [|g' gs' i' [NE' F2] D' G']; [discriminate|]. destruct g' as [|e' g']; [congruence|]. cbn in E. injection E as <- _. apply (D (e' :: g') gs'); reflexivity. }
  destruct (concat gs) as [|e1 r] eqn:C.
  - cbn [bind]. eexists. split; [reflexivity|]. constructor; [exists e0; split; reflexivity|]. destruct G as [|g' gs' i' [NE' F2] D' G']; [constructor|]. destruct g'; [congruence|discriminate].
  - cbn [hd_error] in IH. destruct (IH fuel e1 eq_refl) as (ts & T & FT); [cbn [app List.length] in L; rewrite app_length in L; cbn [List.length] in *; lia|].
    rewrite T. cbn [bind]. eexists. split; [reflexivity|]. constructor; [exists e0; split; reflexivity|exact FT].
Qed.
Lemma groups_exist pts : exists gs, grouped gs /\ concat gs = pts.
Proof.
  induction pts as [|e pts (gs & G & C)]; [exists []; split; [constructor|reflexivity]|].
  destruct G as [|g gs i [NE F] D G].
  - exists [[e]]. split; [|rewrite <- C; reflexivity]. apply (grouped_cons _ _ (id_of e)); [split; [discriminate|repeat constructor]|intros g' gs' e' E; discriminate|constructor].
  - destruct (Z.eq_dec (id_of e) i) as [E|E].
    + exists ((e :: g) :: gs). split; [|cbn [concat app]; f_equal; exact C]. apply (grouped_cons _ _ i); [split; [discriminate|constructor; assumption]|exact D|exact G].
    + exists ([e] :: g :: gs). split; [|cbn [concat app]; f_equal; exact C]. apply (grouped_cons _ _ (id_of e)); [split; [discriminate|repeat constructor]| |apply (grouped_cons _ _ i); [split; assumption|exact D|exact G]].
      intros g' gs' e' E' H. injection E' as <- <-. destruct g as [|e2 g]; [congruence|]. injection H as <-. inversion F; subst. congruence.
Qed.
Lemma make_stretch g i e : one_id i g -> hd_error g = Some e -> stretch g (make_trace g (type_of e)).
Proof.
  intros [NE F] H. destruct e as [[p t] j]. exists p, t, j. split; [exact H|]. assert (J : j = i) by (destruct g; [discriminate|]; injection H as ->; inversion F; subst; reflexivity). subst j.
  split; [exact F|]. split; [reflexivity|]. exists (fst (line_dict t)), (snd (line_dict t)). split; [apply table_color|]. split; [apply table_dash|reflexivity].
Qed.
End P.

(** Points are drawn in stretches of one id. *)
Theorem points_grouped : forall (P : Type) (pts : list (P * feature_type * Z)), pts <> [] ->
  exists fig gs, plot_map_points pts = Ok fig /\ concat gs = pts /\ Forall2 stretch gs (traces fig)
    /\ (forall pre g g' post, gs = pre ++ g :: g' :: post -> first_id g <> first_id g').
Proof.
  intros P pts NE. destruct (groups_exist pts) as (gs & G & C). destruct pts as [|e pts]; [congruence|].
  destruct (loop_groups gs G (List.length (e :: pts)) e) as (ts & T & F); [rewrite C; reflexivity|rewrite C; lia|]. rewrite C in T.
  eexists. exists gs. unfold plot_map_points. rewrite T. cbn [bind]. split; [reflexivity|]. split; [exact C|]. cbn [traces]. split.
  - clear C T NE. revert ts F. induction G as [|g gs i O D G IH]; intros ts F; inversion F as [|? tr ? ts' (e' & H & ->) F']; subst; constructor; [apply (make_stretch g i); assumption|apply IH; assumption].
  - clear - G. induction G as [|g gs i [NE F] D G IH]; intros pre a b post E; [destruct pre; discriminate|]. destruct pre as [|x pre]; cbn [app] in E.
    + injection E as <- ->. unfold first_id. destruct g as [|e g]; [congruence|]. cbn [hd_error option_map]. inversion F; subst.
      inversion G as [|b' gs' j [NB FB] DB GB]; subst. destruct b as [|eb b]; [congruence|]. cbn [hd_error option_map]. intros X. injection X as X. apply (D (eb :: b) post eb eq_refl eq_refl). congruence.
    + injection E as -> E. apply (IH pre a b post E).
Qed.
(** Each point is marked in its color. *)
Theorem points_marked : forall (P : Type) (pts : list (P * feature_type * Z)) fig, plot_map_points pts = Ok fig ->
  Forall2 (fun e m => fst m = point_of e /\ has_color (type_of e) (snd m)) pts (scatter fig).
Proof.
  intros P pts fig H. unfold plot_map_points in H. destruct pts as [|e pts]; [discriminate|]. destruct (trace_loop _ _ _ _); cbn [bind] in H; [|discriminate]. injection H as <-. cbn [scatter].
  assert (G : forall l : list (P * feature_type * Z), Forall2 (fun e m => fst m = point_of e /\ has_color (type_of e) (snd m)) l (map (fun e => (point_of e, fst (line_dict (type_of e)))) l)).
  { induction l as [|x l IH]; constructor; [split; [reflexivity|apply table_color]|exact IH]. }
  exact (G (e :: pts)).
Qed.

(** ** Features *)
Section F.
Context {P : Type}.
Implicit Types (pts : list (P * feature_type * Z)) (fs : list (map_feature P)).
Definition points_of (f : map_feature P) : list (P * feature_type * Z) :=
  if visible f then match kind (data f) with Some t => map (fun p => (p, t, feature_id f)) (path (data f)) | None => [] end else [].

Lemma poly_points id (l : list P) (t : option feature_type) pts : add_points id l t false pts = Ok (pts ++ match t with Some t => map (fun p => (p, t, id)) l | None => [] end).
Proof. unfold add_points. destruct t; [reflexivity|rewrite app_nil_r; reflexivity]. Qed.
Lemma ring_points id (l : list P) t pts : l <> [] -> add_points id l (Some t) true pts = Ok (pts ++ map (fun p => (p, t, id)) (closed l)).
Proof. intros N. unfold add_points. destruct l as [|p l]; [congruence|]. cbn [closed]. rewrite map_app, app_assoc. reflexivity. Qed.

Lemma lane_kind t (l : list P) : lane_types t = kind (Lane t l).
Proof. unfold lane_types, kind. destruct (Z.ltb_spec t 0); [destruct t; try lia; reflexivity|]. destruct t as [|t|t]; [reflexivity| |lia]. do 2 (destruct t as [t|t|]; try reflexivity); try (assert (E : (4 <= Z.to_nat (Z.pos _))%nat) by (rewrite Z2Nat.inj_pos; lia)). all: symmetry; apply nth_error_None; cbn [List.length]; lia. Qed.
Lemma edge_kind t (l : list P) : road_edge_types t = kind (RoadEdge t l).
Proof. unfold road_edge_types, kind. destruct (Z.ltb_spec t 0); [destruct t; try lia; reflexivity|]. destruct t as [|t|t]; [reflexivity| |lia]. do 2 (destruct t as [t|t|]; try reflexivity). all: symmetry; apply nth_error_None; cbn [List.length]; lia. Qed.
Lemma line_kind t (l : list P) : road_line_types t = if t =? 7 then None else kind (RoadLine t l).
Proof. unfold road_line_types, kind. destruct (Z.ltb_spec t 0); [destruct t; try lia; reflexivity|]. destruct t as [|t|t]; [reflexivity| |lia]. do 4 (destruct t as [t|t|]; try reflexivity). all: symmetry; match goal with |- (if ?b then _ else _) = _ => destruct b; [reflexivity|] end; apply nth_error_None; cbn [List.length]; lia. Qed.

Lemma add_ok pts f : ~ broken f -> add_feature pts f = Ok (pts ++ points_of f).
Proof.
  intros B. unfold add_feature, points_of, visible. destruct f as [id d]. unfold broken in B. cbn [data feature_id] in *.
  assert (N : forall A (l : list A), l = [] \/ l <> []) by (intros A [|]; [left; reflexivity|right; discriminate]).
  destruct d as [t l|t l|t l|p|l|l|l|]; cbn [path double_yellow data].
  - rewrite poly_points, (lane_kind t l). destruct (kind (Lane t l)); [|reflexivity]. destruct l; reflexivity.
  - rewrite poly_points, (line_kind t l). destruct (Z.eqb_spec t 7) as [->|E].
    + destruct (kind (RoadLine 7 l)); destruct l; reflexivity.
    + assert (X : (match t with 7 => true | _ => false end) = false) by (destruct t as [|q|q]; try reflexivity; do 3 (destruct q as [q|q|]; try reflexivity); congruence).
      unfold double_yellow. cbn [data]. rewrite X. destruct (kind (RoadLine t l)); [|reflexivity]. destruct l; reflexivity.
  - rewrite poly_points, (edge_kind t l). destruct (kind (RoadEdge t l)); [|reflexivity]. destruct l; reflexivity.
  - reflexivity.
  - destruct l as [|p l]; [tauto|]. rewrite ring_points by discriminate. reflexivity.
  - destruct l as [|p l]; [tauto|]. rewrite ring_points by discriminate. reflexivity.
  - destruct l as [|p l]; [tauto|]. rewrite ring_points by discriminate. reflexivity.
  - rewrite app_nil_r. reflexivity.
Qed.
Lemma add_broken pts f : broken f -> add_feature pts f = Err IndexError.
Proof. unfold broken, add_feature. destruct f as [id d]. cbn [data]. destruct d as [t l|t l|t l|p|l|l|l|]; try tauto; destruct l; try tauto; reflexivity. Qed.
Lemma broken_dec (f : map_feature P) : broken f \/ ~ broken f.
Proof. unfold broken. destruct (data f) as [t l|t l|t l|p|l|l|l|]; try tauto; destruct l; tauto. Qed.
Lemma fold_ok fs : Forall (fun f => ~ broken f) fs -> forall pts, foldM add_feature fs pts = Ok (pts ++ concat (map points_of fs)).
Proof.
  induction 1 as [|f fs B _ IH]; intros pts; cbn [foldM map concat]; [rewrite app_nil_r; reflexivity|]. rewrite add_ok by exact B. cbn [bind]. rewrite IH, app_assoc. reflexivity.
Qed.
Lemma fold_broken fs : Exists broken fs -> forall pts, foldM add_feature fs pts = Err IndexError.
Proof.
  induction fs as [|f fs IH]; intros H pts; [inversion H|]. cbn [foldM]. destruct (broken_dec f) as [B|B]; [rewrite add_broken by exact B; reflexivity|].
  rewrite add_ok by exact B. cbn [bind]. apply IH. inversion H; subst; [contradiction|assumption].
Qed.
Lemma visible_points fs : concat (map points_of fs) = concat (map points_of (filter visible fs)).
Proof.
  induction fs as [|f fs IH]; [reflexivity|]. cbn [map concat filter]. destruct (visible f) eqn:V; cbn [map concat]; rewrite IH; [reflexivity|]. unfold points_of at 1. rewrite V. reflexivity.
Qed.
Lemma visible_spec f : visible f = true -> exists t, kind (data f) = Some t /\ points_of f = map (fun p => (p, t, feature_id f)) (path (data f)) /\ path (data f) <> [].
Proof.
  intros V. unfold points_of. rewrite V. unfold visible in V. destruct (kind (data f)) as [t|]; [|discriminate]. exists t. destruct (path (data f)); [discriminate|]. split; [reflexivity|]. split; [reflexivity|discriminate].
Qed.
Lemma visible_one f : visible f = true -> one_id (feature_id f) (points_of f).
Proof.
  intros V. destruct (visible_spec f V) as (t & _ & -> & N). split; [destruct (path (data f)); [congruence|discriminate]|]. apply Forall_forall. intros e I. apply in_map_iff in I. destruct I as (p & <- & _). reflexivity.
Qed.
Lemma visible_grouped fs : Forall (fun f => visible f = true) fs -> neighbours_differ fs -> grouped (map points_of fs).
Proof.
  induction 1 as [|f fs V F IH]; intros D; cbn [map]; [constructor|]. apply (grouped_cons _ _ (feature_id f)); [apply visible_one; exact V| |apply IH].
  - intros g' gs' e E H. destruct fs as [|b fs]; [discriminate|]. cbn [map] in E. injection E as <- <-. inversion F; subst.
    destruct (visible_one b) as [_ O]; [assumption|]. destruct (points_of b) as [|x r]; [discriminate|]. injection H as <-. inversion O as [|? ? EQ ?]; subst. rewrite EQ. intros C. apply (D f b [] fs eq_refl). congruence.
  - intros a b pre post E. apply (D a b (f :: pre) post). rewrite E. reflexivity.
Qed.
Lemma no_points fs : concat (map points_of fs) = [] <-> Forall (fun f => visible f = false) fs.
Proof.
  induction fs as [|f fs IH]; cbn [map concat]; [split; [constructor|reflexivity]|]. split.
  - intros H. apply app_eq_nil in H. destruct H as [A B]. constructor; [|apply IH; exact B]. destruct (visible f) eqn:V; [|reflexivity]. destruct (visible_one f V) as [N _]. congruence.
  - intros H. inversion H; subst. rewrite (proj2 IH) by assumption. unfold points_of. replace (visible f) with false by congruence. reflexivity.
Qed.
End F.

(** Exactly when a map is plotted; otherwise IndexError. *)
Theorem plot_outcome : forall (P : Type) (fs : list (map_feature P)),
  ((exists fig, plot_map_features fs = Ok fig) <-> (forall f, In f fs -> ~ broken f) /\ exists f, In f fs /\ visible f = true)
  /\ (forall e, plot_map_features fs = Err e -> e = IndexError).
Proof.
  intros P fs. unfold plot_map_features. assert (D : Exists broken fs \/ Forall (fun f => ~ broken f) fs).
  { induction fs as [|f fs [IH|IH]]; [right; constructor|left; right; exact IH|]. destruct (broken_dec f); [left; left; assumption|right; constructor; assumption]. }
  destruct D as [D|D].
  - rewrite fold_broken by exact D. cbn [bind]. split; [|intros e H; congruence]. split; [intros [fig H]; discriminate|]. intros [H _]. apply Exists_exists in D. destruct D as (f & I & B). destruct (H f I B).
  - rewrite fold_ok by exact D. cbn [bind app]. destruct (concat (map points_of fs)) as [|e l] eqn:C.
    + cbn [plot_map_points]. split; [|intros e H; congruence]. split; [intros [fig H]; discriminate|]. intros [_ (f & I & V)]. apply no_points in C. rewrite Forall_forall in C. rewrite (C f I) in V. discriminate.
    + destruct (points_grouped P (e :: l) ltac:(discriminate)) as (fig & gs & -> & _). split; [|intros x H; discriminate]. split; [intros _|intros _; exists fig; reflexivity].
      rewrite Forall_forall in D. split; [exact D|]. destruct (existsb visible fs) eqn:X; [apply existsb_exists in X; exact X|].
      assert (N : concat (map points_of fs) = []); [|congruence]. apply no_points. apply Forall_forall. intros f I. destruct (visible f) eqn:V; [|reflexivity].
      assert (T : existsb visible fs = true) by (apply existsb_exists; exists f; split; assumption). congruence.
Qed.
(** What is plotted. *)
Theorem features_drawn : forall (P : Type) (fs : list (map_feature P)) fig, plot_map_features fs = Ok fig -> neighbours_differ (filter visible fs) ->
  Forall2 draws (filter visible fs) (traces fig) /\ exists ms, scatter fig = concat ms /\ Forall2 marks (filter visible fs) ms.
Proof.
  intros P fs fig H D. destruct (proj1 (proj1 (plot_outcome P fs))) as [B [f0 [I0 V0]]]; [exists fig; exact H|].
  unfold plot_map_features in H. rewrite fold_ok in H by (apply Forall_forall; exact B). cbn [bind app] in H. rewrite visible_points in H.
  assert (VF : Forall (fun f => visible f = true) (filter visible fs)) by (apply Forall_forall; intros f I; apply filter_In in I; tauto).
  assert (G := visible_grouped _ VF D). set (vs := filter visible fs) in *. clearbody vs.
  destruct (concat (map points_of vs)) as [|e l] eqn:C; [discriminate|]. cbn [plot_map_points] in H.
  destruct (loop_groups _ G (List.length (e :: l)) e) as (ts & T & F); [rewrite C; reflexivity|rewrite C; lia|]. rewrite C in T. rewrite T in H. cbn [bind] in H. injection H as <-. cbn [traces scatter]. split.
  - clear C T G D. revert ts F. induction VF as [|f vs V VF IH]; intros ts F; inversion F as [|? tr ? ts' (e' & H & ->) F']; subst; constructor; [|apply IH; assumption].
    destruct (visible_spec f V) as (t & K & PT & N). rewrite PT in *. split; [unfold make_trace; cbn [vals]; rewrite map_map; cbn [point_of fst]; apply map_id|].
    assert (ET : type_of e' = t) by (destruct (path (data f)); [congruence|]; injection H as <-; reflexivity).
    exists t, (fst (line_dict t)), (snd (line_dict t)). split; [exact K|]. split; [apply table_color|]. split; [apply table_dash|]. rewrite ET. reflexivity.
  - exists (map (fun f => map (fun e => (point_of e, fst (line_dict (type_of e)))) (points_of f)) vs).
    change ((point_of e, fst (line_dict (type_of e))) :: map (fun e0 => (point_of e0, fst (line_dict (type_of e0)))) l) with (map (fun e0 : P * feature_type * Z => (point_of e0, fst (line_dict (type_of e0)))) (e :: l)).
    split; [rewrite <- C, concat_map, map_map; reflexivity|]. clear C T G D F. induction VF as [|f vs V VF IH]; constructor; [|exact IH].
    destruct (visible_spec f V) as (t & K & PT & N). exists t, (fst (line_dict t)). split; [exact K|]. split; [apply table_color|]. rewrite PT, map_map. reflexivity.
Qed.
Theorem unique_ids_differ : forall (P : Type) (fs : list (map_feature P)), NoDup (map feature_id fs) -> neighbours_differ (filter visible fs).
Proof.
  intros P fs N a b pre post E. assert (N' : NoDup (map feature_id (filter visible fs))).
  { clear E. induction fs as [|f fs IH]; [constructor|]. cbn [map filter] in *. inversion N; subst. destruct (visible f); [|apply IH; assumption]. cbn [map]. constructor; [|apply IH; assumption].
    intros I. apply in_map_iff in I. destruct I as (x & X & I). apply filter_In in I. destruct I as [I _]. match goal with H : ~ In _ _ |- _ => apply H end. rewrite <- X. apply in_map. exact I. }
  rewrite E, map_app in N'. cbn [map] in N'. apply NoDup_remove_2 in N'. intros C. apply N'. apply in_app_iff. right. left. congruence.
Qed.

(** Defects. *)
Theorem stop_sign_refuted : exists (fs : list (map_feature Z)) fig tr, fs = [ {| feature_id := 1; data := StopSign 5 |} ] /\ plot_map_features fs = Ok fig /\ traces fig = [tr]
  /\ vals tr = [5] /\ exists color, look tr = Lines "solid" color (3 # 2) /\ forall size c, look tr <> Markers size c.
Proof. eexists. eexists. eexists. split; [reflexivity|]. split; [reflexivity|]. split; [reflexivity|]. split; [reflexivity|]. eexists. split; [reflexivity|intros; discriminate]. Qed.
Theorem double_yellow_refuted : exists f g : map_feature Z, kind (data f) = Some SOLID_DOUBLE_YELLOW_BOUNDARY /\ path (data f) = [1; 2]
  /\ plot_map_features [f; g] = plot_map_features [g] /\ (exists fig, plot_map_features [g] = Ok fig) /\ plot_map_features [f] = Err IndexError.
Proof.
  exists {| feature_id := 1; data := RoadLine 7 [1; 2] |}, {| feature_id := 2; data := Lane 1 [3; 4] |}. split; [reflexivity|]. split; [reflexivity|]. split; [reflexivity|]. split; [eexists; reflexivity|reflexivity].
Qed.
Theorem lane_width_refuted : exists (f : map_feature Z) g fig tr tr', kind (data f) = Some FREEWAY_LANE /\ kind (data g) = Some DRIVEWAY /\ plot_map_features [f; g] = Ok fig
  /\ traces fig = [tr; tr'] /\ exists d c d' c', look tr = Lines d c (3 # 2) /\ look tr' = Lines d' c' (3 # 2).
Proof.
  exists {| feature_id := 1; data := Lane 1 [1; 2] |}, {| feature_id := 2; data := Driveway [3; 4] |}. do 3 eexists. split; [reflexivity|]. split; [reflexivity|]. split; [reflexivity|]. split; [reflexivity|].
  do 4 eexists. split; reflexivity.
Qed.
Theorem same_id_refuted : exists (f g : map_feature Z) fig tr, feature_id f = feature_id g /\ kind (data f) <> kind (data g) /\ plot_map_features [f; g] = Ok fig /\ traces fig = [tr]
  /\ vals tr = path (data f) ++ path (data g).
Proof.
  exists {| feature_id := 1; data := Lane 1 [1; 2] |}, {| feature_id := 1; data := RoadEdge 1 [3; 4] |}. do 2 eexists. split; [reflexivity|]. split; [discriminate|]. split; [reflexivity|]. split; reflexivity.
Qed.
