(** Proofs about column types. *)
From Coq Require Import String Lia.
From Verif Require Import Base ResultLib ComponentModel ComponentSpec ComponentProofs ArrowModel ArrowSpec.
Open Scope string_scope.
Open Scope list_scope.

Section TtyInd.
Variable P : tty -> Prop.
Hypothesis HL : forall a, P (TLeaf a).
Hypothesis HN : forall k fs, (forall n r t, In (n, r, t) fs -> P t) -> P (TNode k fs).
Fixpoint tty_ind' (t : tty) : P t :=
  match t with
  | TLeaf a => HL a
  | TNode k fs => HN k fs ((fix go (l : list (string * bool * tty)) : forall n r t, In (n, r, t) l -> P t :=
      match l return forall n r t, In (n, r, t) l -> P t with
      | [] => fun n r t H => match H with end
      | (n0, r0, t0) :: l' => fun n r t H => match H with or_introl E => eq_ind t0 P (tty_ind' t0) t (f_equal snd E) | or_intror H' => go l' n r t H' end
      end) fs)
  end.
End TtyInd.

Definition ef (f : string * bool * tty) : string * bool * ty := (fst (fst f), snd (fst f), erase (snd f)).

(** * The leaves of a value, in order *)
Fixpoint lvs {V} (none : V) (t : ty) (v : val V) {struct t} : list V :=
  match t with
  | Leaf => [match v with VLeaf x => x | _ => none end]
  | Node _ fs =>
      (fix go (fs : list (string * bool * ty)) (vs : list (val V)) {struct fs} : list V :=
         match fs, vs with
         | (_, _, t') :: fs', v' :: vs' => lvs none t' v' ++ go fs' vs'
         | _, _ => []
         end) fs (match v with VNode vs => vs | _ => map (fun _ => VNone) fs end)
  end.
Fixpoint lvs_go {V} (none : V) (fs : list (string * bool * ty)) (vs : list (val V)) : list V :=
  match fs, vs with
  | (_, _, t') :: fs', v' :: vs' => lvs none t' v' ++ lvs_go none fs' vs'
  | _, _ => []
  end.
Lemma lvs_node {V} (none : V) k fs v : lvs none (Node k fs) v = lvs_go none fs (kids fs v).
Proof.
  cbn [lvs]. unfold kids. generalize (match v with VNode vs => vs | _ => map (fun _ => VNone) fs end).
  induction fs as [|[[n r] t] fs IH]; intros vs; [reflexivity|]. destruct vs; [reflexivity|]. cbn [lvs_go]. now rewrite IH.
Qed.

Lemma dset_snd {V} k (x : V) d : ~ In k (map fst d) -> map snd (dset k x d) = map snd d ++ [x].
Proof.
  induction d as [|[k' x'] d IH]; intros H; [reflexivity|]. cbn [dset]. destruct (String.eqb_spec k k') as [->|N]; [elim H; now left|].
  cbn [map snd app]. f_equal. apply IH. intros H'. apply H. now right.
Qed.

Lemma flat_values {V} (none : V) t : forall v path cols, (typed t v \/ v = VNone) -> NoDup (map fst cols ++ schema_cols t path) ->
  map snd (flat none t v path cols) = map snd cols ++ lvs none t v.
Proof.
  induction t as [|k fs IH] using ty_ind'; intros v path cols T N.
  - cbn [flat schema_cols lvs] in *. apply dset_snd. apply NoDup_remove_2 in N. rewrite app_nil_r in N. exact N.
  - rewrite flat_node, lvs_node. cbn [schema_cols] in *. assert (T' : typed (Node k fs) v) by (destruct T as [T| ->]; [exact T|exact I]).
    destruct (kids_typed k fs v T') as [L K]. revert L K. generalize (kids fs v). clear T T'. revert cols N. induction fs as [|[[n r] t] fs IHf]; intros cols N vs L K.
    + cbn. now rewrite app_nil_r.
    + destruct vs as [|w vs]; [discriminate L|]. cbn [flat_go lvs_go map concat fst snd] in *. rewrite app_assoc in N. destruct (K 0%nat n r t eq_refl) as (w' & [= <-] & Tw).
      pose proof (flat_names none t w (path ++ [plain_name n r])%list cols Tw (nodup_app_l _ _ N)) as E.
      pose proof (IH n r t (or_introl eq_refl) w (path ++ [plain_name n r])%list cols Tw (nodup_app_l _ _ N)) as Ev.
      rewrite app_assoc, <- Ev. rewrite <- E in N. apply IHf; [intros n' r' t' H'; apply (IH n' r'); now right|exact N|now injection L|].
      intros i n' r' t' Hi. exact (K (S i) n' r' t' Hi).
Qed.

Lemma columns_values {V} (none : V) c vs : instance c vs -> NoDup (schema c) -> map snd (to_flatten_dict none c vs) = lvs_go none (cfields c) vs.
Proof.
  intros [T K] N. unfold to_flatten_dict, schema in *. enough (G : forall fs vs (cols : dict V), typed_fields fs vs -> keys_present fs vs ->
    NoDup (map fst cols ++ concat (map (fun f => schema_cols (snd f) [comp_name (cname c) (fst (fst f)) (snd (fst f)) (is_key (snd f))]) fs)) ->
    map snd (flat_fields none (cname c) fs vs cols) = map snd cols ++ lvs_go none fs vs) by (now apply (G _ _ [])).
  clear. intros fs. induction fs as [|[[n r] t] fs IH]; intros vs cols T K N; destruct vs as [|v vs]; cbn [typed_fields] in T; try contradiction; [cbn; now rewrite app_nil_r|].
  destruct T as [T1 T2]. cbn [keys_present] in K. destruct K as [K1 K2]. cbn [flat_fields lvs_go map concat fst snd] in *. rewrite app_assoc in N.
  assert (E : is_key_value t v = is_key t) by (destruct v; try reflexivity; cbn [is_key_value]; destruct (is_key t); [now elim K1|reflexivity]).
  rewrite E. pose proof (flat_names none t v [comp_name (cname c) n r (is_key t)] cols (or_introl T1) (nodup_app_l _ _ N)) as F.
  pose proof (flat_values none t v [comp_name (cname c) n r (is_key t)] cols (or_introl T1) (nodup_app_l _ _ N)) as Fv.
  rewrite app_assoc, <- Fv. rewrite <- F in N. now apply IH.
Qed.

(** * The types are the columns of the instance that holds its types *)
Fixpoint type_val (t : tty) : val (option arrow) :=
  match t with TLeaf a => VLeaf a | TNode _ fs => VNode (map (fun f => type_val (snd f)) fs) end.
Definition type_vals (fs : list (string * bool * tty)) : list (val (option arrow)) := map (fun f => type_val (snd f)) fs.
Fixpoint tleaves (t : tty) : list (option arrow) := match t with TLeaf a => [a] | TNode _ fs => concat (map (fun f => tleaves (snd f)) fs) end.

Lemma arrow_flat t : forall path cols, arrow_types t path cols = flat None (erase t) (type_val t) path cols.
Proof.
  induction t as [a|k fs IH] using tty_ind'; intros path cols; [reflexivity|]. cbn [erase type_val]. rewrite flat_node. cbn [arrow_types kids].
  revert cols. induction fs as [|[[n r] t] fs IHf]; intros cols; [reflexivity|]. cbn [fold_left map flat_go fst snd].
  rewrite (IH n r t (or_introl eq_refl)). apply IHf. intros n' r' t' H. apply (IH n' r'). now right.
Qed.
Lemma component_flat c : component_arrow_types c = to_flatten_dict None (erase_component c) (type_vals (tfields c)).
Proof.
  unfold component_arrow_types, to_flatten_dict, erase_component. cbn [cname cfields]. generalize (@nil (string * option arrow)).
  generalize (tfields c). intros fs. induction fs as [|[[n r] t] fs IH]; intros cols; [reflexivity|]. cbn [fold_left map type_vals flat_fields fst snd].
  rewrite arrow_flat. assert (is_key_value (erase t) (type_val t) = tis_key t) as -> by (destruct t; reflexivity). apply IH.
Qed.

Lemma type_val_typed t : typed (erase t) (type_val t).
Proof.
  induction t as [a|k fs IH] using tty_ind'; [exact I|]. cbn [erase type_val]. apply typed_node.
  induction fs as [|[[n r] t] fs IHf]; [exact I|]. cbn [map typed_fields fst snd]. split; [apply (IH n r t); now left|]. apply IHf. intros n' r' t' H. apply (IH n' r'). now right.
Qed.
Lemma type_vals_instance c : instance (erase_component c) (type_vals (tfields c)).
Proof.
  unfold instance, erase_component. cbn [cfields]. generalize (tfields c). intros fs. induction fs as [|[[n r] t] fs IH]; [split; exact I|].
  destruct IH as [I1 I2]. cbn [map type_vals typed_fields keys_present fst snd]. repeat split; try assumption; [apply type_val_typed|]. intros _. destruct t; discriminate.
Qed.
Lemma type_val_leaves t : lvs None (erase t) (type_val t) = tleaves t.
Proof.
  induction t as [a|k fs IH] using tty_ind'; [reflexivity|]. cbn [erase type_val]. rewrite lvs_node. cbn [kids tleaves].
  induction fs as [|[[n r] t] fs IHf]; [reflexivity|]. cbn [map lvs_go concat fst snd]. rewrite (IH n r t (or_introl eq_refl)). f_equal.
  apply IHf. intros n' r' t' H. apply (IH n' r'). now right.
Qed.
Lemma type_vals_leaves fs : lvs_go None (map ef fs) (type_vals fs) = concat (map (fun f => tleaves (snd f)) fs).
Proof. induction fs as [|[[n r] t] fs IH]; [reflexivity|]. cbn [map type_vals lvs_go concat ef fst snd]. rewrite type_val_leaves. f_equal. exact IH. Qed.

(** * Fitting *)
Section Fits.
Context {V : Type} (none : V) (fits : option arrow -> V -> Prop) (Hnone : forall a, fits a none).

Lemma missing_fits t : Forall2 fits (tleaves t) (lvs none (erase t) VNone).
Proof.
  induction t as [a|k fs IH] using tty_ind'; [repeat constructor; apply Hnone|]. cbn [erase]. rewrite lvs_node. cbn [kids tleaves]. rewrite map_map.
  induction fs as [|[[n r] t] fs IHf]; [constructor|]. cbn [map lvs_go concat fst snd]. apply Forall2_app; [apply (IH n r t); now left|].
  apply IHf. intros n' r' t' H. apply (IH n' r'). now right.
Qed.

Lemma leaves_length t : forall v, typed (erase t) v \/ v = VNone -> length (lvs none (erase t) v) = length (tleaves t).
Proof.
  induction t as [a|k fs IH] using tty_ind'; intros v T; [reflexivity|]. cbn [erase] in *. rewrite lvs_node.
  assert (T' : typed (Node k (map ef fs)) v) by (destruct T as [T| ->]; [exact T|exact I]). clear T.
  destruct (kids_typed k (map ef fs) v T') as [L K]. unfold ef in L, K. revert L K. generalize (kids (map (fun f => (fst (fst f), snd (fst f), erase (snd f))) fs) v). clear T'. cbn [tleaves].
  induction fs as [|[[n r] t] fs IHf]; intros vs L K; [reflexivity|]. destruct vs as [|w vs]; [discriminate L|]. cbn [map lvs_go concat fst snd] in *.
  destruct (K 0%nat n r (erase t) eq_refl) as (w' & [= <-] & Tw). rewrite !app_length, (IH n r t (or_introl eq_refl) w Tw). f_equal.
  apply IHf; [intros n' r' t' H; apply (IH n' r'); now right|now injection L|]. intros i n' r' t' Hi. exact (K (S i) n' r' t' Hi).
Qed.

Lemma forall2_app_iff {A B} (R : A -> B -> Prop) a b c d : length a = length b -> (Forall2 R (a ++ c) (b ++ d) <-> Forall2 R a b /\ Forall2 R c d).
Proof.
  revert b. induction a as [|x a IH]; intros [|y b] L; try discriminate L; cbn [app]; [split; [intros H; split; [constructor|exact H]|tauto]|].
  split.
  - intros H. inversion H; subst. apply IH in H5; [|now injection L]. split; [constructor; tauto|tauto].
  - intros [H1 H2]. inversion H1; subst. constructor; [assumption|]. apply IH; [now injection L|tauto].
Qed.

Lemma leaves_conform t : forall v, typed (erase t) v -> (Forall2 fits (tleaves t) (lvs none (erase t) v) <-> conforms fits t v).
Proof.
  induction t as [a|k fs IH] using tty_ind'; intros v T.
  - destruct v as [x| |vs]; [|destruct T|destruct T]. cbn. split; intros H; inversion H; subst; constructor; auto.
  - destruct v as [x| |vs]; [destruct T| |].
    + split; intros _; [constructor|]. apply missing_fits.
    + cbn [erase] in T. rewrite typed_node in T. cbn [erase]. rewrite lvs_node. cbn [kids tleaves].
      assert (Forall2 fits (concat (map (fun f => tleaves (snd f)) fs)) (lvs_go none (map (fun f => (fst (fst f), snd (fst f), erase (snd f))) fs) vs)
              <-> Forall2 (fun f v => conforms fits (snd f) v) fs vs) as E.
      { revert vs T. induction fs as [|[[n r] t] fs IHf]; intros vs T.
        - destruct vs; [|destruct T]. cbn. split; constructor.
        - destruct vs as [|w vs]; [destruct T|]. cbn [map typed_fields lvs_go concat fst snd] in *. destruct T as [T1 T2].
          rewrite forall2_app_iff by (symmetry; apply leaves_length; now left). rewrite (IH n r t (or_introl eq_refl) w T1).
          rewrite IHf; [|intros n' r' t' H; apply (IH n' r'); now right|exact T2]. split.
          + intros [A B]. constructor; [exact A|exact B].
          + intros H. inversion H; subst. split; assumption. }
      rewrite E. split; [intros H; constructor; exact H|]. intros H. inversion H; subst. assumption.
Qed.

Lemma row_fits_split (types : dict (option arrow)) (row : dict V) : map fst types = map fst row -> (row_fits fits types row <-> Forall2 fits (map snd types) (map snd row)).
Proof.
  unfold row_fits. revert row. induction types as [|[n a] types IH]; intros [|[n' x] row] E; try discriminate E; cbn [map fst snd] in *; [split; constructor|].
  injection E as -> E. specialize (IH row E). split; intros H; inversion H; subst; constructor; cbn in *; try tauto; apply IH; assumption.
Qed.

Theorem rows_fit c vs : instance (erase_component c) vs -> NoDup (schema (erase_component c)) ->
  (row_fits fits (component_arrow_types c) (to_flatten_dict none (erase_component c) vs) <-> Forall2 (fun f v => conforms fits (snd f) v) (tfields c) vs).
Proof.
  intros Hi N. rewrite component_flat. pose proof (type_vals_instance c) as Ht.
  rewrite row_fits_split by (rewrite !columns_are_schema by assumption; reflexivity). rewrite !columns_values by assumption.
  destruct Hi as [T _]. clear Ht N. unfold erase_component in *. cbn [cfields] in *. fold ef in *. change (fun f : string * bool * tty => (fst (fst f), snd (fst f), erase (snd f))) with ef in *.
  rewrite type_vals_leaves. revert vs T. generalize (tfields c). intros fs. induction fs as [|[[n r] t] fs IH]; intros vs T.
  - destruct vs; [|destruct T]. cbn. split; constructor.
  - destruct vs as [|w vs]; [destruct T|]. cbn [map ef typed_fields lvs_go concat fst snd] in *. destruct T as [T1 T2].
    rewrite forall2_app_iff by (symmetry; apply leaves_length; now left). rewrite leaves_conform by exact T1. rewrite IH by exact T2. split.
    + intros [A B]. constructor; [exact A|exact B].
    + intros H. inversion H; subst. split; assumption.
Qed.
End Fits.

(** * The schema *)
Lemma types_named c : NoDup (schema (erase_component c)) -> map fst (component_arrow_types c) = schema (erase_component c).
Proof. intros N. rewrite component_flat. apply columns_are_schema; [apply type_vals_instance|exact N]. Qed.
Lemma types_values c : NoDup (schema (erase_component c)) -> map snd (component_arrow_types c) = concat (map (fun f => tleaves (snd f)) (tfields c)).
Proof. intros N. rewrite component_flat. rewrite columns_values by (apply type_vals_instance || exact N). apply type_vals_leaves. Qed.

Lemma annotated_leaves t : annotated t <-> Forall (fun a => a <> None) (tleaves t).
Proof.
  induction t as [a|k fs IH] using tty_ind'; cbn [tleaves].
  - split; intros H; inversion H; subst; [constructor; [discriminate|constructor]|]. destruct a; [constructor|contradiction].
  - split.
    + intros H. inversion H as [|k' fs' Hf]; subst. apply Forall_concat, Forall_map, Forall_forall. intros [[n r] t] I. cbn. apply (IH n r t I). exact (Hf n r t I).
    + intros H. constructor. intros n r t I. apply (IH n r t I). apply Forall_forall. intros a A. rewrite Forall_forall in H. apply H. apply in_concat.
      exists (tleaves t). split; [apply in_map_iff; exists (n, r, t); split; [reflexivity|exact I]|exact A].
Qed.

Lemma mapM_types (l : dict (option arrow)) :
  (Forall (fun a => a <> None) (map snd l) -> exists s, mapM (fun p : string * option arrow => match snd p with Some a => Ok (fst p, a) | None => Err RuntimeError end) l = Ok s /\ map (fun p => (fst p, Some (snd p))) s = l) /\
  (~ Forall (fun a => a <> None) (map snd l) -> mapM (fun p : string * option arrow => match snd p with Some a => Ok (fst p, a) | None => Err RuntimeError end) l = Err RuntimeError).
Proof.
  induction l as [|[n [a|]] l [IH1 IH2]]; cbn [map snd mapM bind fst].
  - split; [intros _; exists []; split; reflexivity|]. intros H. elim H. constructor.
  - split.
    + intros H. inversion H as [|x y Hx Hy]; subst. destruct (IH1 Hy) as (s & E & M). rewrite E. exists ((n, a) :: s). split; [reflexivity|]. cbn. now rewrite M.
    + intros H. rewrite IH2; [reflexivity|]. intros F. apply H. constructor; [discriminate|exact F].
  - split; [intros H; inversion H; contradiction|]. reflexivity.
Qed.

Lemma fields_annotated (fs : list (string * bool * tty)) :
  Forall (fun a => a <> None) (concat (map (fun f => tleaves (snd f)) fs)) <-> (forall n r t, In (n, r, t) fs -> annotated t).
Proof.
  change (concat (map (fun f => tleaves (snd f)) fs)) with (tleaves (TNode false fs)). rewrite <- annotated_leaves. split.
  - intros H. inversion H; subst. assumption.
  - intros H. constructor. exact H.
Qed.

(** The schema exists exactly if every leaf has a type; it then has the columns of every instance, with the types of the leaves. *)
Theorem schema_exact c : NoDup (schema (erase_component c)) ->
  ((forall n r t, In (n, r, t) (tfields c) -> annotated t) -> exists s, typed_schema c = Ok s /\ map fst s = schema (erase_component c) /\
     map (fun p => (fst p, Some (snd p))) s = component_arrow_types c) /\
  (~ (forall n r t, In (n, r, t) (tfields c) -> annotated t) -> typed_schema c = Err RuntimeError).
Proof.
  intros N. destruct (mapM_types (component_arrow_types c)) as [A B]. rewrite types_values, fields_annotated in A, B by exact N. split.
  - intros H. destruct (A H) as (s & E & M). exists s. split; [exact E|]. split; [|exact M]. rewrite <- types_named, <- M, map_map by exact N. reflexivity.
  - exact B.
Qed.

(** * The dataset *)
Lemma dataset_erased : map erase_component typed_components = components.
Proof. vm_compute. reflexivity. Qed.
Lemma dataset_nodup c : In c typed_components -> NoDup (schema (erase_component c)).
Proof. intros H. apply all_nodup. rewrite <- dataset_erased. now apply in_map. Qed.

Fixpoint annotatedb (t : tty) : bool := match t with TLeaf (Some _) => true | TLeaf None => false | TNode _ fs => forallb (fun f => annotatedb (snd f)) fs end.
Lemma annotatedb_ok t : annotatedb t = true -> annotated t.
Proof.
  induction t as [[a|]|k fs IH] using tty_ind'; cbn; intros H; try discriminate; constructor. intros n r t I. apply (IH n r t I).
  rewrite forallb_forall in H. exact (H (n, r, t) I).
Qed.
Lemma dataset_annotated c n r t : In c typed_components -> In (n, r, t) (tfields c) -> annotated t.
Proof.
  intros H I. assert (B : forallb (fun c => forallb (fun f => annotatedb (snd f)) (tfields c)) typed_components = true) by (vm_compute; reflexivity).
  rewrite forallb_forall in B. specialize (B c H). cbv beta in B. rewrite forallb_forall in B. apply annotatedb_ok. exact (B (n, r, t) I).
Qed.
Lemma dataset_schema c : In c typed_components -> exists s, typed_schema c = Ok s /\ map fst s = schema (erase_component c).
Proof.
  intros H. destruct (proj1 (schema_exact c (dataset_nodup c H)) (fun n r t I => dataset_annotated c n r t H I)) as (s & E & M & _). now exists s.
Qed.

Definition arrow_eq_dec (a b : arrow) : {a = b} + {a <> b}.
Proof. decide equality. decide equality. Defined.
Definition agree (s s' : list (string * arrow)) : bool :=
  forallb (fun p => forallb (fun p' => negb (String.eqb (fst p) (fst p')) || if arrow_eq_dec (snd p) (snd p') then true else false) s') s.
Lemma dataset_agree c c' s s' n a a' : In c typed_components -> In c' typed_components -> typed_schema c = Ok s -> typed_schema c' = Ok s' ->
  tname c <> tname c' -> In (n, a) s -> In (n, a') s' -> (exists r, n = ("key." ++ r)%string) /\ a = a'.
Proof.
  intros H H' E E' Nn I I'.
  assert (B : forallb (fun c => forallb (fun c' => match typed_schema c, typed_schema c' with Ok s, Ok s' => agree s s' | _, _ => false end) typed_components) typed_components = true) by (vm_compute; reflexivity).
  rewrite forallb_forall in B. specialize (B c H). cbv beta in B. rewrite forallb_forall in B. specialize (B c' H'). cbv beta in B. rewrite E, E' in B.
  unfold agree in B. rewrite forallb_forall in B. specialize (B _ I). cbv beta in B. rewrite forallb_forall in B. specialize (B _ I'). cbn [fst snd] in B.
  rewrite String.eqb_refl in B. cbn in B. split.
  - destruct (dataset_schema c H) as (s1 & E1 & M1). destruct (dataset_schema c' H') as (s2 & E2 & M2). rewrite E in E1. injection E1 as <-. rewrite E' in E2. injection E2 as <-.
    apply (all_shared (erase_component c) (erase_component c') n).
    + rewrite <- dataset_erased. now apply in_map.
    + rewrite <- dataset_erased. now apply in_map.
    + exact Nn.
    + rewrite <- M1. apply in_map_iff. now exists (n, a).
    + rewrite <- M2. apply in_map_iff. now exists (n, a').
  - destruct (arrow_eq_dec a a'); [assumption|discriminate].
Qed.

Fixpoint all_listsb (t : tty) : bool :=
  match t with TLeaf (Some (ListOf _ | ListOfSize _ _)) => true | TLeaf _ => false | TNode _ fs => forallb (fun f => all_listsb (snd f)) fs end.
Lemma all_listsb_ok t : all_listsb t = true -> all_lists t.
Proof.
  induction t as [[a|]|k fs IH] using tty_ind'; cbn; intros H; try discriminate; constructor.
  - destruct a; try discriminate H; exact I.
  - intros n r t J. apply (IH n r t J). rewrite forallb_forall in H. exact (H (n, r, t) J).
Qed.
Fixpoint repeatedb (t : tty) : bool := match t with TLeaf _ => true | TNode _ fs => forallb (fun f => repeatedb (snd f) && (negb (snd (fst f)) || all_listsb (snd f))) fs end.
Lemma repeatedb_ok t : repeatedb t = true -> repeated_lists t.
Proof.
  induction t as [a|k fs IH] using tty_ind'; cbn; intros H; constructor. intros n r t J. rewrite forallb_forall in H. specialize (H (n, r, t) J). cbn in H.
  apply andb_prop in H. destruct H as [H1 H2]. split; [now apply (IH n r t J)|]. intros ->. now apply all_listsb_ok.
Qed.
Lemma dataset_repeated c : In c typed_components -> repeated_lists (TNode false (tfields c)).
Proof.
  intros H. assert (B : forallb (fun c => repeatedb (TNode false (tfields c))) typed_components = true) by (vm_compute; reflexivity).
  rewrite forallb_forall in B. apply repeatedb_ok. exact (B c H).
Qed.
