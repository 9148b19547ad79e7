(** Proofs about wireframes. *)
From Coq Require Import String Lia Lqa.
From Verif Require Import Base ResultLib KpModel KpSpec KpProofs KpDrawModel KpDrawSpec.
Open Scope list_scope.
Open Scope Z_scope.

Lemma entry_get {A} (table : list (Z * A)) t : entry table t = dict_get Z.eqb t table.
Proof.
  unfold entry. induction table as [|[k v] table IH]; [reflexivity|]. cbn [find fst dict_get]. rewrite (Z.eqb_sym t k). destruct (k =? t); [reflexivity|exact IH].
Qed.

Lemma get_latest ks t p : dict_get Z.eqb t (keypoint_coordinates ks) = Some p -> exists k, latest ks t k /\ location p = kp_location k /\ is_occluded p = kp_occluded k.
Proof.
  rewrite (coordinates_get ks t). destruct (find _ (rev ks)) as [k|] eqn:E; [|discriminate]. intros H. injection H as <-. exists k. split; [|split; reflexivity].
  apply (find_rev_some (fun k => kp_type k = t) _ (zeqb_type t)) in E. exact E.
Qed.
Lemma get_none ks t : dict_get Z.eqb t (keypoint_coordinates ks) = None <-> ~ present ks t.
Proof.
  rewrite (coordinates_get ks t). split.
  - intros H (k & I & T). destruct (find _ (rev ks)) eqn:E; [discriminate|].
    apply (find_rev_none (fun k => kp_type k = t) _ (zeqb_type t)) in E. unfold none_with in E. rewrite Forall_forall in E. apply (E k I T).
  - intros N. destruct (find _ (rev ks)) as [k|] eqn:E; [|reflexivity]. exfalso. apply N.
    apply (find_rev_some (fun k => kp_type k = t) _ (zeqb_type t)) in E. apply last_in in E. exists k. exact E.
Qed.
Lemma get_some ks t : (exists p, dict_get Z.eqb t (keypoint_coordinates ks) = Some p) <-> present ks t.
Proof.
  split.
  - intros (p & H). destruct (get_latest ks t p H) as (k & (b & a & -> & T & _) & _). exists k. split; [apply in_elt|exact T].
  - intros P. destruct (dict_get Z.eqb t (keypoint_coordinates ks)) as [p|] eqn:E; [exists p; reflexivity|]. apply get_none in E. contradiction.
Qed.
Lemma latest_unique ks t a b : latest ks t a -> latest ks t b -> a = b.
Proof.
  intros A B. assert (X : find (fun k => Z.eqb t (kp_type k)) (rev ks) = Some a) by (apply (find_rev_some (fun k => kp_type k = t) _ (zeqb_type t)); exact A).
  assert (Y : find (fun k => Z.eqb t (kp_type k)) (rev ks) = Some b) by (apply (find_rev_some (fun k => kp_type k = t) _ (zeqb_type t)); exact B). congruence.
Qed.
Lemma latest_in ks t k : latest ks t k -> In k ks.
Proof. intros (b & a & -> & _). apply in_elt. Qed.

(** The order of the keys. *)
Lemma set_keys_order k (v : @point vec) d : map fst (dict_set Z.eqb k v d) = if existsb (Z.eqb k) (map fst d) then map fst d else map fst d ++ [k].
Proof.
  induction d as [|[c w] d IH]; [reflexivity|]. cbn [dict_set map fst existsb]. destruct (k =? c); cbn [orb map fst]; [reflexivity|].
  rewrite IH. destruct (existsb (Z.eqb k) (map fst d)); reflexivity.
Qed.
Lemma types_of_ext ks : forall s s', (forall t, existsb (Z.eqb t) s = existsb (Z.eqb t) s') -> types_of s ks = types_of s' ks.
Proof.
  induction ks as [|k ks IH]; intros s s' E; [reflexivity|]. cbn [types_of]. rewrite E. destruct (existsb _ s'); [apply IH; exact E|].
  f_equal. apply IH. intros t. cbn [existsb]. rewrite E. reflexivity.
Qed.
Lemma fill_keys ks : forall d : list (Z * @point vec), map fst (fold_left (fun d k => dict_set Z.eqb (kp_type k) (point_from_proto k) d) ks d) = map fst d ++ types_of (map fst d) ks.
Proof.
  induction ks as [|k ks IH]; intros d; [rewrite app_nil_r; reflexivity|]. cbn [fold_left types_of]. rewrite IH, set_keys_order.
  destruct (existsb (Z.eqb (kp_type k)) (map fst d)) eqn:E; [reflexivity|]. rewrite <- app_assoc. cbn [app]. do 2 f_equal.
  apply types_of_ext. intros t. rewrite existsb_app. cbn [existsb]. rewrite orb_false_r. apply orb_comm.
Qed.
Lemma coordinates_keys (ks : list keypoint) : map fst (keypoint_coordinates ks) = types_of [] ks.
Proof. unfold keypoint_coordinates. rewrite fill_keys. reflexivity. Qed.
Lemma coordinates_nodup (ks : list keypoint) : NoDup (map fst (keypoint_coordinates ks)).
Proof. apply (fill_nodup Z.eqb Z.eqb_eq kp_type point_from_proto ks []). constructor. Qed.

Theorem types_spec ks : NoDup (types_of [] ks) /\ forall t, In t (types_of [] ks) <-> present ks t.
Proof.
  rewrite <- coordinates_keys. split; [apply coordinates_nodup|]. intros t. rewrite <- get_some. split.
  - intros I. apply in_map_iff in I. destruct I as ((t', p) & E & I). cbn in E. subst t'. exists p. apply (in_get Z.eqb Z.eqb_eq t p _ (coordinates_nodup ks)). exact I.
  - intros (p & H). apply (in_get Z.eqb Z.eqb_eq t p _ (coordinates_nodup ks)) in H. apply (in_map fst) in H. exact H.
Qed.

(** Vectors. *)
Lemma nth_vadd a b i : (i < List.length a)%nat -> (i < List.length b)%nat -> (nth i (vadd a b) 0 == nth i a 0 + nth i b 0)%Q.
Proof.
  revert b i. induction a as [|x a IH]; intros [|y b] i A B; cbn [List.length] in *; try lia. unfold vadd. cbn [combine map fst snd].
  destruct i; cbn [nth]; [reflexivity|]. apply IH; lia.
Qed.
Lemma vadd_length a b d : List.length a = d -> List.length b = d -> List.length (vadd a b) = d.
Proof. intros A B. unfold vadd. rewrite map_length, combine_length. lia. Qed.
Lemma nth_vscale k a i : (i < List.length a)%nat -> (nth i (vscale k a) 0 == k * nth i a 0)%Q.
Proof.
  revert i. induction a as [|x a IH]; intros i A; cbn [List.length] in *; [lia|]. unfold vscale. cbn [map]. destruct i; cbn [nth]; [reflexivity|]. apply IH. lia.
Qed.
Lemma sum_vadd d vs : forall v, List.length v = d -> Forall (fun v => List.length v = d) vs ->
  List.length (fold_left vadd vs v) = d
  /\ forall i, (i < d)%nat -> (nth i (fold_left vadd vs v) 0 == nth i v 0 + fold_right Qplus 0 (map (fun v => nth i v 0) vs))%Q.
Proof.
  induction vs as [|w vs IH]; intros v L F; cbn [fold_left map fold_right]; [split; [exact L|intros i I; ring]|].
  inversion F as [|? ? LW F']; subst. destruct (IH (vadd v w)) as [A B]; [apply vadd_length; [reflexivity|exact LW]|exact F'|].
  split; [exact A|]. intros i I. rewrite (B i I), nth_vadd by lia. ring.
Qed.
Lemma vmean_spec d vs : vs <> [] -> Forall (fun v => List.length v = d) vs -> exists m, vmean vs = Ok m /\ is_mean d vs m.
Proof.
  intros NE F. destruct vs as [|v vs]; [congruence|]. inversion F as [|? ? L F']; subst. destruct (sum_vadd (List.length v) vs v eq_refl F') as [A B].
  eexists. split; [reflexivity|]. split; [unfold vscale; rewrite map_length; exact A|]. intros i I. rewrite nth_vscale by lia. rewrite (B i I).
  cbn [map fold_right]. field. intros E. unfold Qeq in E. cbn [inject_Z Qnum Qden List.length] in E. lia.
Qed.
Lemma middle_spec d a b : List.length a = d -> List.length b = d -> is_mean d [a; b] (vscale (1 # 2) (vadd a b)).
Proof.
  intros A B. split; [unfold vscale; rewrite map_length; apply vadd_length; assumption|]. intros i I. rewrite nth_vscale by (rewrite (vadd_length a b d); assumption).
  rewrite nth_vadd by lia. cbn [map fold_right List.length]. change (inject_Z (Z.of_nat 2)) with 2%Q. field.
Qed.
Lemma bicolor_spec d a ca b cb w : List.length a = d -> List.length b = d -> halves d a ca b cb w (bicolor_lines a ca b cb w).
Proof. intros A B. exists (vscale (1 # 2) (vadd a b)). split; [apply middle_spec; assumption|reflexivity]. Qed.

Lemma latest_dim d ks t k : same_dim d ks -> latest ks t k -> List.length (kp_location k) = d.
Proof. intros S L. apply latest_in in L. unfold same_dim in S. rewrite Forall_forall in S. apply S. exact L. Qed.

Lemma color_default c t : get_or DEFAULT_COLOR (dict_get Z.eqb t (point_colors c)) = color_or_default c t.
Proof. unfold color_or_default. rewrite entry_get. destruct (dict_get Z.eqb t (point_colors c)); reflexivity. Qed.

Lemma item_points ks ts ps : mapM (item (keypoint_coordinates ks)) ts = Ok ps -> exists es, Forall2 (latest ks) ts es /\ map location ps = map kp_location es.
Proof.
  revert ps. induction ts as [|t ts IH]; intros ps; cbn [mapM]; [intros H; injection H as <-; exists []; split; constructor|].
  unfold item at 1. destruct (dict_get Z.eqb t (keypoint_coordinates ks)) as [p|] eqn:E; cbn [bind]; [|discriminate].
  destruct (mapM (item (keypoint_coordinates ks)) ts) as [qs|] eqn:M; cbn [bind]; [|discriminate]. intros H. injection H as <-.
  destruct (IH qs eq_refl) as (es & F & X). destruct (get_latest ks t p E) as (k & L & EL & _). exists (k :: es). split; [constructor; assumption|].
  cbn [map]. rewrite EL, X. reflexivity.
Qed.
Lemma has_present ks ts : forallb (fun t => match dict_get Z.eqb t (keypoint_coordinates ks) with Some _ => true | None => false end) ts = true <-> Forall (present ks) ts.
Proof.
  rewrite forallb_forall, Forall_forall. split; intros H t I; specialize (H t I).
  - apply get_some. destruct (dict_get Z.eqb t (keypoint_coordinates ks)) as [p|]; [exists p; reflexivity|discriminate].
  - apply get_some in H. destruct H as (p & ->). reflexivity.
Qed.
Lemma points_ok ks ts : Forall (present ks) ts -> exists ps, mapM (item (keypoint_coordinates ks)) ts = Ok ps /\ List.length ps = List.length ts.
Proof.
  induction 1 as [|t ts P F IH]; [exists []; split; reflexivity|]. destruct IH as (ps & M & L). apply get_some in P. destruct P as (p & E).
  exists (p :: ps). cbn [mapM]. unfold item at 1. rewrite E. cbn [bind]. rewrite M. split; [reflexivity|]. cbn [List.length]. rewrite L. reflexivity.
Qed.
Lemma colors_ok c ts : (exists cs, mapM (item (point_colors c)) ts = Ok cs /\ end_color c ts (combine_colors cs)) /\ Forall (fun t => entry (point_colors c) t <> None) ts
  \/ mapM (item (point_colors c)) ts = Err KeyError /\ ~ Forall (fun t => entry (point_colors c) t <> None) ts.
Proof.
  assert (G : (exists cs, mapM (item (point_colors c)) ts = Ok cs /\ Forall2 (fun t s => entry (point_colors c) t = Some s) ts cs)
    \/ mapM (item (point_colors c)) ts = Err KeyError /\ ~ Forall (fun t => entry (point_colors c) t <> None) ts).
  { induction ts as [|t ts IH]; [left; exists []; split; [reflexivity|constructor]|]. cbn [mapM]. unfold item at 1 3. rewrite <- entry_get.
    destruct (entry (point_colors c) t) as [s|] eqn:E; cbn [bind].
    - destruct IH as [(cs & M & F)|(M & N)]; rewrite M; cbn [bind].
      + left. exists (s :: cs). split; [reflexivity|constructor; assumption].
      + right. split; [reflexivity|]. intros F. inversion F; subst. contradiction.
    - right. split; [reflexivity|]. intros F. inversion F; subst. congruence. }
  destruct G as [(cs & M & F)|G]; [left|right; exact G]. split.
  - exists cs. split; [exact M|]. inversion F as [|t s ts' cs' E F']; subst; [reflexivity|]. inversion F' as [|t2 s2 ts2 cs2 E2 F2]; subst; [exact E|]. reflexivity.
  - clear M. induction F as [|t s ts cs E F IH]; constructor; [congruence|exact IH].
Qed.

(** The lines of an edge. *)
Lemma scaled_lines d ks c e : same_dim d ks ->
  (drawable_edge ks c e -> exists ls, create_lines (scaled (line_width_factor c) e) (keypoint_coordinates ks) (point_colors c) = Ok ls /\ edge_shows d ks c e ls)
  /\ (~ drawable_edge ks c e -> exists err, create_lines (scaled (line_width_factor c) e) (keypoint_coordinates ks) (point_colors c) = Err err).
Proof.
  intros SD. destruct e as [s t w|s t w|ss ts w]; cbn [scaled create_lines drawable_edge edge_shows].
  - split; [intros _|intros H; exfalso; apply H; exact I].
    destruct (dict_get Z.eqb s (keypoint_coordinates ks)) as [a|] eqn:A; [destruct (dict_get Z.eqb t (keypoint_coordinates ks)) as [b|] eqn:B|].
    + eexists. split; [reflexivity|]. left. destruct (get_latest ks s a A) as (ka & LA & EA & _). destruct (get_latest ks t b B) as (kb & LB & EB & _).
      exists ka, kb. rewrite EA, EB, color_default. auto.
    + exists []. split; [reflexivity|]. right. apply get_none in B. tauto.
    + exists []. split; [reflexivity|]. right. apply get_none in A. tauto.
  - split; [intros _|intros H; exfalso; apply H; exact I].
    destruct (dict_get Z.eqb s (keypoint_coordinates ks)) as [a|] eqn:A; [destruct (dict_get Z.eqb t (keypoint_coordinates ks)) as [b|] eqn:B|].
    + eexists. split; [reflexivity|]. left. destruct (get_latest ks s a A) as (ka & LA & EA & _). destruct (get_latest ks t b B) as (kb & LB & EB & _).
      exists ka, kb. rewrite EA, EB, !color_default. split; [exact LA|]. split; [exact LB|]. apply bicolor_spec; [apply (latest_dim d ks s)|apply (latest_dim d ks t)]; assumption.
    + exists []. split; [reflexivity|]. right. apply get_none in B. tauto.
    + exists []. split; [reflexivity|]. right. apply get_none in A. tauto.
  - assert (ENDS : forall ts, ts <> [] -> Forall (present ks) ts -> exists ps m, mapM (item (keypoint_coordinates ks)) ts = Ok ps /\ vmean (map location ps) = Ok m /\ end_of d ks ts m /\ List.length m = d).
    { clear - SD. intros ts NE P. destruct (points_ok ks ts P) as (ps & M & L). destruct (item_points ks ts ps M) as (es & F & X).
      destruct (vmean_spec d (map location ps)) as (m & V & IM).
      - intros E. apply map_eq_nil in E. subst ps. destruct ts; [congruence|discriminate].
      - rewrite X. clear - SD F. induction F as [|t k ts es L F IH]; constructor; [apply (latest_dim d ks t); assumption|exact IH].
      - exists ps, m. split; [exact M|]. split; [exact V|]. split; [exists es; split; [exact F|rewrite <- X; exact IM]|apply IM]. }
    set (hs := forallb _ ss). set (ht := forallb _ ts).
    assert (HS : hs = true <-> Forall (present ks) ss) by apply has_present. assert (HT : ht = true <-> Forall (present ks) ts) by apply has_present.
    clearbody hs ht. destruct (hs && ht) eqn:H.
    + apply andb_prop in H. destruct H as [H1 H2]. apply HS in H1. apply HT in H2. split.
      * intros D. destruct (D H1 H2) as (N1 & N2 & FC). apply Forall_app in FC. destruct FC as [C1 C2].
        destruct (ENDS ss N1 H1) as (ps & m & -> & V1 & E1 & L1). destruct (ENDS ts N2 H2) as (qs & n & -> & V2 & E2 & L2).
        destruct (colors_ok c ss) as [[(cs & -> & X1) _]|[_ X]]; [|contradiction]. destruct (colors_ok c ts) as [[(cs2 & -> & X2) _]|[_ X]]; [|contradiction].
        cbn [bind]. rewrite V1. cbn [bind]. rewrite V2. cbn [bind]. eexists. split; [reflexivity|]. left. exists m, n, (combine_colors cs), (combine_colors cs2).
        repeat (split; [assumption|]). apply bicolor_spec; assumption.
      * intros ND.
        destruct (points_ok ks ss H1) as (ps & M1 & LP). rewrite M1. cbn [bind]. destruct ss as [|s ss]; [destruct ps; [|discriminate]; eexists; reflexivity|].
        destruct (ENDS (s :: ss) ltac:(discriminate) H1) as (ps' & m & M1' & V1 & E1 & L1). rewrite M1 in M1'. injection M1' as <-. rewrite V1. cbn [bind].
        destruct (colors_ok c (s :: ss)) as [[(cs & -> & X1) FC1]|[-> X]]; [cbn [bind]|eexists; reflexivity].
        destruct (points_ok ks ts H2) as (qs & M2 & LQ). rewrite M2. cbn [bind]. destruct ts as [|t ts]; [destruct qs; [|discriminate]; eexists; reflexivity|].
        destruct (ENDS (t :: ts) ltac:(discriminate) H2) as (qs' & n & M2' & V2 & E2 & L2). rewrite M2 in M2'. injection M2' as <-. rewrite V2. cbn [bind].
        destruct (colors_ok c (t :: ts)) as [[(cs2 & -> & X2) FC2]|[-> X]]; [|eexists; reflexivity].
        exfalso. apply ND. intros _ _. split; [discriminate|]. split; [discriminate|]. apply Forall_app. auto.
    + assert (NP : ~ (Forall (present ks) ss /\ Forall (present ks) ts)) by (intros [A B]; apply HS in A; apply HT in B; subst hs ht; discriminate).
      split; [intros _; exists []; split; [reflexivity|right; auto]|]. intros ND. exfalso. apply ND. intros A B. exfalso. apply NP. auto.
Qed.

(** The dots. *)
Lemma dot_spec ks c t p : dict_get Z.eqb t (keypoint_coordinates ks) = Some p ->
  (drawable_type c t -> exists x, make_dot c (t, p) = Ok x /\ dot_shows ks c t x) /\ (~ drawable_type c t -> exists err, make_dot c (t, p) = Err err).
Proof.
  intros H. destruct (get_latest ks t p H) as (k & L & EL & EO). unfold make_dot, item. cbn [fst snd]. unfold drawable_type. rewrite !entry_get.
  destruct (dict_get Z.eqb t (point_colors c)) as [color|] eqn:C; cbn [bind]; [|split; [intros [X _]; congruence|eexists; reflexivity]].
  destruct (dict_get Z.eqb t (point_sizes c)) as [size|] eqn:S; cbn [bind]; [|split; [intros (_ & X & _); congruence|eexists; reflexivity]].
  destruct (point_name t) as [n|] eqn:N; cbn [bind]; [|split; [intros (_ & _ & m & X); discriminate|eexists; reflexivity]].
  split; [intros _|intros X; exfalso; apply X; split; [discriminate|]; split; [discriminate|exists n; reflexivity]].
  eexists. split; [reflexivity|]. exists k, color, size, n. rewrite !entry_get. cbn [d_location d_color d_size d_name]. unfold actual_border_color. cbn [d_border d_color].
  repeat (split; [first [assumption|reflexivity]|]). rewrite EO. destruct (kp_occluded k); cbn.
  - split; reflexivity.
  - split; [|reflexivity]. clear. induction n as [|ch n IH]; [reflexivity|]. cbn. f_equal. exact IH.
Qed.

Lemma mapM_Forall2_ok {A B} (f : A -> result B) (P : A -> B -> Prop) l : (forall x, In x l -> exists y, f x = Ok y /\ P x y) -> exists ys, mapM f l = Ok ys /\ Forall2 P l ys.
Proof.
  induction l as [|x l IH]; intros H; [exists []; split; [reflexivity|constructor]|].
  destruct (H x (or_introl eq_refl)) as (y & E & Q). destruct IH as (ys & M & F); [intros z I; apply H; right; exact I|].
  exists (y :: ys). cbn [mapM]. rewrite E. cbn [bind]. rewrite M. split; [reflexivity|constructor; assumption].
Qed.
Lemma mapM_one_err {A B} (f : A -> result B) l x e : In x l -> f x = Err e -> exists e', mapM f l = Err e'.
Proof.
  induction l as [|y l IH]; intros I H; [destruct I|]. cbn [mapM]. destruct I as [->|I]; [rewrite H; eexists; reflexivity|].
  destruct (f y); cbn [bind]; [|eexists; reflexivity]. destruct (IH I H) as (e' & ->). eexists. reflexivity.
Qed.

(** What a wireframe shows. *)
Theorem wireframe_shows d ks c : same_dim d ks -> Forall (drawable_type c) (types_of [] ks) -> Forall (drawable_edge ks c) (edges c) ->
  exists w parts, build_wireframe ks c = Ok w /\ Forall2 (dot_shows ks c) (types_of [] ks) (dots w)
    /\ lines w = concat parts /\ Forall2 (edge_shows d ks c) (edges c) parts.
Proof.
  intros SD FT FE. rewrite Forall_forall in FT, FE. unfold build_wireframe, build_wireframe_of.
  destruct (mapM_Forall2_ok (fun e => create_lines (scaled (line_width_factor c) e) (keypoint_coordinates ks) (point_colors c)) (edge_shows d ks c) (edges c)) as (parts & -> & FP).
  { intros e I. apply (scaled_lines d ks c e SD). apply FE. exact I. }
  cbn [bind]. rewrite <- coordinates_keys in FT |- *.
  destruct (mapM_Forall2_ok (make_dot c) (fun tp x => dot_shows ks c (fst tp) x) (keypoint_coordinates ks)) as (ds & -> & FD).
  { intros [t p] I. cbn [fst]. assert (J := I). apply (in_get Z.eqb Z.eqb_eq t p _ (coordinates_nodup ks)) in I. apply (dot_spec ks c t p I). apply FT. apply (in_map fst) in J. exact J. }
  cbn [bind]. eexists. exists parts. split; [reflexivity|]. cbn [lines dots]. split; [|split; [reflexivity|exact FP]].
  clear - FD. induction FD as [|[t p] x l xs H F IH]; constructor; assumption.
Qed.
(** It cannot be built otherwise. *)
Lemma drawable_dec c t : drawable_type c t \/ ~ drawable_type c t.
Proof.
  unfold drawable_type. destruct (entry (point_colors c) t); [|right; intros [X _]; congruence]. destruct (entry (point_sizes c) t); [|right; intros (_ & X & _); congruence].
  destruct (point_name t) as [n|]; [left; split; [discriminate|split; [discriminate|exists n; reflexivity]]|right; intros (_ & _ & m & X); discriminate].
Qed.
Theorem wireframe_outcome d ks c : same_dim d ks ->
  ((exists w, build_wireframe ks c = Ok w) <-> Forall (drawable_type c) (types_of [] ks) /\ Forall (drawable_edge ks c) (edges c)).
Proof.
  intros SD. split.
  - intros (w & H). unfold build_wireframe, build_wireframe_of in H.
    destruct (mapM (fun e => create_lines (scaled (line_width_factor c) e) (keypoint_coordinates ks) (point_colors c)) (edges c)) as [parts|] eqn:ML; cbn [bind] in H; [|discriminate].
    destruct (mapM (make_dot c) (keypoint_coordinates ks)) as [ds|] eqn:MD; cbn [bind] in H; [|discriminate]. split.
    + apply Forall_forall. intros t I. destruct (drawable_dec c t) as [D|D]; [exact D|exfalso]. rewrite <- coordinates_keys in I.
      apply in_map_iff in I. destruct I as ((t', p) & E & I). cbn in E. subst t'. assert (J := I). apply (in_get Z.eqb Z.eqb_eq t p _ (coordinates_nodup ks)) in I.
      destruct (proj2 (dot_spec ks c t p I) D) as (e & X). destruct (mapM_one_err _ _ _ _ J X) as (e' & Y). congruence.
    + apply Forall_forall. intros e I.
      assert (ED : drawable_edge ks c e \/ ~ drawable_edge ks c e).
      { destruct e as [s t wd|s t wd|ss ts wd].
        - left. cbn. exact Logic.I.
        - left. cbn. exact Logic.I.
        - cbn [drawable_edge]. destruct (forallb (fun t => match dict_get Z.eqb t (keypoint_coordinates ks) with Some _ => true | None => false end) ss) eqn:A.
          2:{ left. intros P. apply has_present in P. congruence. }
          destruct (forallb (fun t => match dict_get Z.eqb t (keypoint_coordinates ks) with Some _ => true | None => false end) ts) eqn:B.
          2:{ left. intros _ P. apply has_present in P. congruence. }
          apply has_present in A, B. destruct ss as [|s ss]; [right; intros H'; destruct (H' A B) as (X & _); congruence|].
          destruct ts as [|t ts]; [right; intros H'; destruct (H' A B) as (_ & X & _); congruence|].
          destruct (Forall_dec (fun t => entry (point_colors c) t <> None)) with (l := (s :: ss) ++ t :: ts) as [F|F].
          { intros x. destruct (entry (point_colors c) x); [left; discriminate|right; congruence]. }
          + left. intros _ _. split; [discriminate|split; [discriminate|exact F]].
          + right. intros H'. destruct (H' A B) as (_ & _ & X). contradiction. }
      destruct ED as [D|D]; [exact D|exfalso]. destruct (proj2 (scaled_lines d ks c e SD) D) as (er & X).
      destruct (mapM_one_err (fun e => create_lines (scaled (line_width_factor c) e) (keypoint_coordinates ks) (point_colors c)) _ _ _ I X) as (e' & Y). congruence.
  - intros [A B]. destruct (wireframe_shows d ks c SD A B) as (w & parts & E & _). exists w. exact E.
Qed.

(** With the default configurations. *)
Lemma known_drawable c t : point_colors c = default_colors -> point_sizes c = default_point_sizes -> (drawable_type c t <-> In t known_types).
Proof.
  intros C S. unfold drawable_type. rewrite C, S. split.
  - intros (H & _). unfold entry in H. destruct (find (fun e => fst e =? t) default_colors) as [e|] eqn:F; [|congruence].
    apply find_some in F. destruct F as [I E]. apply Z.eqb_eq in E. unfold default_colors in I. cbn [In] in I.
    repeat (destruct I as [<-|I]; [cbn in E; subst t; unfold known_types; cbn [In]; tauto|]). destruct I.
  - intros I. unfold known_types in I. cbn [In] in I. repeat (destruct I as [<-|I]; [split; [discriminate|]; split; [discriminate|]; eexists; reflexivity|]). destruct I.
Qed.
Theorem default_outcome d ks c : same_dim d ks -> c = camera_config \/ c = laser_config ->
  ((exists w, build_wireframe ks c = Ok w) <-> forall k, In k ks -> In (kp_type k) known_types).
Proof.
  intros SD HC. assert (CC : point_colors c = default_colors /\ point_sizes c = default_point_sizes) by (destruct HC as [->| ->]; split; reflexivity).
  destruct CC as [C S]. rewrite (wireframe_outcome d ks c SD). split.
  - intros [F _] k I. rewrite Forall_forall in F. apply (known_drawable c _ C S). apply F. apply types_spec. exists k. auto.
  - intros H. split.
    + apply Forall_forall. intros t I. apply types_spec in I. destruct I as (k & I & <-). apply (known_drawable c _ C S). apply H. exact I.
    + apply Forall_forall. intros e I. destruct HC as [->| ->]; cbn in I;
        repeat (destruct I as [<-|I]; [first [exact Logic.I|intros _ _; split; [discriminate|split; [discriminate|repeat constructor; discriminate]]]|]); destruct I.
Qed.

(** Drawing in three dimensions needs a keypoint. *)
Theorem laser_drawn w : (dots w <> [] -> exists ts, draw_laser_wireframe w = Ok ts /\ List.length ts = S (List.length (lines w))) /\ (dots w = [] -> draw_laser_wireframe w = Err ValueError).
Proof.
  unfold draw_laser_wireframe. destruct (dots w) as [|x ds]; split; intros H; try congruence; try reflexivity.
  eexists. split; [reflexivity|]. rewrite app_length, map_length. cbn [List.length]. lia.
Qed.
(** An unlabeled person cannot be drawn. *)
Theorem empty_refuted : exists w, build_wireframe [] laser_config = Ok w /\ draw_laser_wireframe w = Err ValueError.
Proof. eexists. split; reflexivity. Qed.
(** A keypoint of unspecified type stops the drawing of all others. *)
Theorem unspecified_refuted : exists ks k, In k ks /\ In (kp_type k) known_types /\ build_wireframe ks camera_config = Err KeyError.
Proof.
  exists [{| kp_type := 1; kp_location := [0%Q; 0%Q]; kp_occluded := false |}; {| kp_type := 0; kp_location := [0%Q; 0%Q]; kp_occluded := false |}].
  eexists. split; [left; reflexivity|]. split; [left; reflexivity|]. reflexivity.
Qed.
(** Colors for all points drawn except that of an averaged end: the edge stops instead of using the default color as the other edges do. *)
Theorem missing_color_refuted : exists ks e e', let c := {| edges := [e]; point_colors := []; point_sizes := []; dot_size_factor := 1; line_width_factor := 1 |} in
  let c' := {| edges := [e']; point_colors := []; point_sizes := []; dot_size_factor := 1; line_width_factor := 1 |} in
  e = Multipoint [5] [13] 1 /\ e' = Bicolored 5 13 1 /\ (exists ls, create_lines e' (keypoint_coordinates ks) (point_colors c') = Ok ls /\ ls <> [])
  /\ create_lines e (keypoint_coordinates ks) (point_colors c) = Err KeyError.
Proof.
  exists [{| kp_type := 5; kp_location := [0%Q; 0%Q]; kp_occluded := false |}; {| kp_type := 13; kp_location := [1%Q; 0%Q]; kp_occluded := false |}]. do 2 eexists.
  cbv zeta. split; [reflexivity|]. split; [reflexivity|]. split; [eexists; split; [reflexivity|discriminate]|reflexivity].
Qed.
