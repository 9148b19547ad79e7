(** Proofs about components and their columns. *)
From Coq Require Import String.
From Verif Require Import Base ResultLib ComponentModel ComponentSpec.
Open Scope string_scope.

(** ** Induction over types *)
Section TyInd.
Variable P : ty -> Prop.
Hypothesis HL : P Leaf.
Hypothesis HN : forall k fs, (forall n r t, In (n, r, t) fs -> P t) -> P (Node k fs).
Fixpoint ty_ind' (t : ty) : P t :=
  match t with
  | Leaf => HL
  | Node k fs => HN k fs ((fix go (l : list (string * bool * ty)) : forall n r t, In (n, r, t) l -> P t :=
      match l return forall n r t, In (n, r, t) l -> P t with
      | [] => fun n r t H => match H with end
      | (n0, r0, t0) :: l' => fun n r t H => match H with or_introl E => eq_ind t0 P (ty_ind' t0) t (f_equal snd E) | or_intror H' => go l' n r t H' end
      end) fs)
  end.
End TyInd.

(** ** Unfolding the inner loops *)
Fixpoint flat_go {V} (none : V) (path : list string) (fs : list (string * bool * ty)) (vs : list (val V)) (cols : dict V) : dict V :=
  match fs, vs with
  | (n, r, t') :: fs', v' :: vs' => flat_go none path fs' vs' (flat none t' v' (path ++ [plain_name n r])%list cols)
  | _, _ => cols
  end.
Definition kids {V} (fs : list (string * bool * ty)) (v : val V) : list (val V) := match v with VNode vs => vs | _ => map (fun _ => VNone) fs end.
Lemma flat_node {V} none k fs (v : val V) path cols : flat none (Node k fs) v path cols = flat_go none path fs (kids fs v) cols.
Proof. cbn [flat]. unfold kids. generalize (match v with VNode vs => vs | _ => map (fun _ => VNone) fs end). revert cols. induction fs as [|[[n r] t] fs IH]; intros cols vs; [reflexivity|]. destruct vs; [reflexivity|]. cbn [flat_go]. apply IH. Qed.
Fixpoint unflat_go {V} (fs : list (string * bool * ty)) (cols : dict V) : result (list (val V)) :=
  match fs with
  | [] => Ok []
  | (n, r, t') :: fs' =>
      do v <- match dget (plain_name n r) cols with Some x => Ok (VLeaf x) | None => unflat t' (remove_prefix (plain_name n r ++ ".") cols) end;
      do vs <- unflat_go fs' cols; Ok (v :: vs)
  end.
Lemma unflat_node {V} k fs (cols : dict V) : unflat (Node k fs) cols = (do vs <- unflat_go fs cols; Ok (VNode vs)).
Proof.
  cbn [unflat]. f_equal. induction fs as [|[[n r] t] fs IH]; [reflexivity|]. cbn [unflat_go]. rewrite IH. reflexivity.
Qed.
Lemma filled_node {V} none k fs (v : val V) : filled none (Node k fs) v = VNode (filled_fields none fs (kids fs v)).
Proof. cbn [filled]. unfold kids. f_equal. generalize (match v with VNode vs => vs | _ => map (fun _ => VNone) fs end). induction fs as [|[[n r] t] fs IH]; intros vs; [reflexivity|]. destruct vs; [reflexivity|]. cbn [filled_fields]. now rewrite IH. Qed.
Lemma typed_node {V} k fs (vs : list (val V)) : typed (Node k fs) (VNode vs) <-> typed_fields fs vs.
Proof.
  cbn [typed]. revert vs. induction fs as [|[[n r] t] fs IH]; intros vs; [reflexivity|]. destruct vs as [|v vs]; [reflexivity|].
  cbn [typed_fields]. now rewrite IH.
Qed.
Fixpoint address_go (p : list nat) (i : nat) (fs : list (string * bool * ty)) : list (val (option (list nat))) :=
  match fs with [] => [] | (_, _, t') :: fs' => address t' (p ++ [i])%list :: address_go p (S i) fs' end.
Lemma address_node k fs p : address (Node k fs) p = VNode (address_go p 0 fs).
Proof. cbn [address]. f_equal. generalize 0%nat. induction fs as [|[[n r] t] fs IH]; intros i; [reflexivity|]. cbn [address_go]. now rewrite IH. Qed.
Lemma addresses_go i fs : addresses i fs = address_go [] i fs.
Proof. revert i. induction fs as [|[[n r] t] fs IH]; intros i; [reflexivity|]. cbn [addresses address_go]. now rewrite IH. Qed.

(** ** Renaming the leaves commutes with everything *)
Fixpoint vmap {A B} (f : A -> B) (v : val A) : val B := match v with VLeaf x => VLeaf (f x) | VNone => VNone | VNode vs => VNode (map (vmap f) vs) end.
Definition dmap {A B} (f : A -> B) (d : dict A) : dict B := map (fun kv => (fst kv, f (snd kv))) d.
Definition rmap {A B} (f : A -> B) (r : result A) : result B := match r with Ok x => Ok (f x) | Err e => Err e end.
Lemma dset_map {A B} (f : A -> B) k x d : dset k (f x) (dmap f d) = dmap f (dset k x d).
Proof. induction d as [|[k' x'] d IH]; [reflexivity|]. cbn [dmap map dset fst snd]. destruct (String.eqb k k'); [reflexivity|]. cbn [map fst snd]. f_equal. exact IH. Qed.
Lemma dget_map {A B} (f : A -> B) k d : dget k (dmap f d) = option_map f (dget k d).
Proof. induction d as [|[k' x'] d IH]; [reflexivity|]. cbn [dmap map dget fst snd]. destruct (String.eqb k k'); [reflexivity|exact IH]. Qed.
Lemma remove_prefix_map {A B} (f : A -> B) p d : remove_prefix p (dmap f d) = dmap f (remove_prefix p d).
Proof.
  unfold remove_prefix. change (@nil (string * B)) with (dmap f []). generalize (@nil (string * A)). induction d as [|[k x] d IH]; intros acc; [reflexivity|].
  cbn [dmap map fold_left fst snd]. rewrite dset_map. apply IH.
Qed.
Lemma flat_map' {A B} (f : A -> B) none t : forall v path cols, flat (f none) t (vmap f v) path (dmap f cols) = dmap f (flat none t v path cols).
Proof.
  induction t as [|k fs IH] using ty_ind'; intros v path cols.
  - cbn [flat]. rewrite <- dset_map. f_equal. now destruct v.
  - rewrite !flat_node. assert (E : kids fs (vmap f v) = map (vmap f) (kids fs v)) by (destruct v; cbn [kids vmap]; [now rewrite map_map|now rewrite map_map|reflexivity]). rewrite E.
    generalize (kids fs v). clear v E. revert cols. induction fs as [|[[n r] t] fs IHf]; intros cols vs; [reflexivity|]. destruct vs as [|v vs]; [reflexivity|].
    cbn [map flat_go]. rewrite (IH n r t (or_introl eq_refl)). apply IHf. intros n' r' t' H. apply (IH n' r'). now right.
Qed.
Lemma unflat_map' {A B} (f : A -> B) t : forall cols, unflat t (dmap f cols) = rmap (vmap f) (unflat t cols).
Proof.
  induction t as [|k fs IH] using ty_ind'; intros cols; [reflexivity|]. rewrite !unflat_node.
  assert (E : unflat_go fs (dmap f cols) = rmap (map (vmap f)) (unflat_go fs cols)); [|rewrite E; now destruct (unflat_go fs cols)].
  induction fs as [|[[n r] t] fs IHf]; [reflexivity|]. cbn [unflat_go]. rewrite dget_map.
  rewrite (IHf (fun n' r' t' H => IH n' r' t' (or_intror H))).
  destruct (dget (plain_name n r) cols); cbn [option_map bind].
  - destruct (unflat_go fs cols); reflexivity.
  - rewrite remove_prefix_map, (IH n r t (or_introl eq_refl)). destruct (unflat t _); cbn [rmap bind]; [|reflexivity]. destruct (unflat_go fs cols); reflexivity.
Qed.
Lemma key_value_map {A B} (f : A -> B) t v : is_key_value t (vmap f v) = is_key_value t v.
Proof. now destruct v. Qed.
Lemma to_flatten_map {A B} (f : A -> B) none c vs : to_flatten_dict (f none) c (map (vmap f) vs) = dmap f (to_flatten_dict none c vs).
Proof.
  unfold to_flatten_dict. change (@nil (string * B)) with (dmap f []). generalize (@nil (string * A)). generalize (cfields c). clear. intros fs. revert vs.
  induction fs as [|[[n r] t] fs IH]; intros vs cols; [reflexivity|]. destruct vs as [|v vs]; [reflexivity|]. cbn [map flat_fields]. rewrite key_value_map, flat_map'. apply IH.
Qed.
Lemma from_dict_map {A B} (f : A -> B) c cols : from_dict c (dmap f cols) = rmap (map (vmap f)) (from_dict c cols).
Proof.
  unfold from_dict. generalize (cfields c). intros fs. induction fs as [|[[n r] t] fs IH]; [reflexivity|]. cbn [unflat_fields]. rewrite dget_map, IH.
  destruct (dget _ cols); cbn [option_map bind].
  - destruct (unflat_fields _ fs cols); reflexivity.
  - rewrite remove_prefix_map, unflat_map'. destruct (unflat t _); cbn [rmap bind]; [|reflexivity]. destruct (unflat_fields _ fs cols); reflexivity.
Qed.
(** ** Filling *)
Lemma filled_kids_flat {V} (none : V) t : forall v path cols, flat none t (filled none t v) path cols = flat none t v path cols.
Proof.
  induction t as [|k fs IH] using ty_ind'; intros v path cols; [now destruct v|].
  rewrite filled_node, !flat_node. cbn [kids]. generalize (kids fs v). clear v. revert cols. induction fs as [|[[n r] t] fs IHf]; intros cols vs; [reflexivity|].
  destruct vs as [|v vs]; [reflexivity|]. cbn [filled_fields flat_go]. rewrite (IH n r t (or_introl eq_refl)). apply IHf. intros n' r' t' H. apply (IH n' r'). now right.
Qed.
Lemma filled_flat {V} (none : V) c vs : instance c vs -> to_flatten_dict none c (filled_fields none (cfields c) vs) = to_flatten_dict none c vs.
Proof.
  intros [_ K]. unfold to_flatten_dict. revert vs K. generalize (@nil (string * V)). generalize (cfields c). intros fs. induction fs as [|[[n r] t] fs IH]; intros cols vs K; [reflexivity|].
  destruct vs as [|v vs]; [reflexivity|]. cbn [filled_fields flat_fields keys_present] in *. destruct K as [K1 K2].
  assert (E : is_key_value t (filled none t v) = is_key_value t v).
  { unfold is_key_value. destruct t as [|k f]; [now destruct v|]. rewrite filled_node. cbn [is_key]. destruct v; try reflexivity. destruct k; [|reflexivity]. now elim K1. }
  rewrite E, filled_kids_flat. now apply IH.
Qed.
Lemma filled_full {V} (none : V) t : forall v, typed t v -> full v = true -> filled none t v = v.
Proof.
  induction t as [|k fs IH] using ty_ind'; intros v T F; [destruct v; [reflexivity|destruct T|destruct T]|].
  destruct v as [|  | vs]; [destruct T|discriminate|]. rewrite filled_node. cbn [kids]. f_equal. rewrite typed_node in T. cbn [full] in F.
  revert vs T F. induction fs as [|[[n r] t] fs IHf]; intros vs T F; [now destruct vs|]. destruct vs as [|v vs]; [destruct T|]. cbn [filled_fields typed_fields forallb] in *.
  apply andb_prop in F. destruct T as [T1 T2], F as [F1 F2]. rewrite (IH n r t (or_introl eq_refl) _ T1 F1). f_equal. apply IHf; auto. intros n' r' t' H. apply (IH n' r'). now right.
Qed.
Lemma filled_fields_full {V} (none : V) fs : forall vs, typed_fields fs vs -> forallb full vs = true -> filled_fields none fs vs = vs.
Proof.
  induction fs as [|[[n r] t] fs IH]; intros vs T F; [now destruct vs|]. destruct vs as [|v vs]; [destruct T|]. cbn [filled_fields typed_fields forallb] in *.
  apply andb_prop in F. destruct T, F. rewrite filled_full by assumption. f_equal. now apply IH.
Qed.
Lemma kids_typed {V} k fs (v : val V) : typed (Node k fs) v -> List.length (kids fs v) = List.length fs /\ forall i n r t, nth_error fs i = Some (n, r, t) -> exists w, nth_error (kids fs v) i = Some w /\ (typed t w \/ w = VNone).
Proof.
  destruct v as [x| |vs]; intros T; [destruct T| |].
  - cbn [kids]. split; [apply map_length|]. intros i n r t H. exists VNone. split; [|now right]. now apply (map_nth_error (fun _ => @VNone V)) in H.
  - rewrite typed_node in T. cbn [kids]. revert vs T. induction fs as [|[[n0 r0] t0] fs IH]; intros vs T; destruct vs as [|v vs]; cbn [typed_fields] in T; try destruct T as [T1 T2]; try contradiction.
    + split; [reflexivity|]. intros i n r t H. destruct i; discriminate.
    + destruct (IH _ T2) as [L N]. split; [cbn [List.length]; now rewrite L|]. intros i n r t H. destruct i; cbn [nth_error] in *; [|now apply (N i n r)].
      injection H as <- <- <-. exists v. auto.
Qed.
(** ** Every filled value is a renaming of the address value *)
Fixpoint at_path {V} (v : val V) (p : list nat) {struct p} : option V :=
  match p with
  | [] => match v with VLeaf x => Some x | _ => None end
  | i :: p' => match v with VNode vs => match nth_error vs i with Some w => at_path w p' | None => None end | _ => None end
  end.
Definition pick {V} (none : V) (vs : list (val V)) (a : option (list nat)) : V :=
  match a with None => none | Some p => match at_path (VNode vs) p with Some x => x | None => none end end.
Lemma at_path_app {V} p q : forall v w : val V, (forall r, at_path v (p ++ r)%list = at_path w r) -> at_path v (p ++ q)%list = at_path w q.
Proof. intros v w H. apply H. Qed.
Lemma address_filled {V} (none : V) f t : f None = none -> forall v p, (typed t v \/ v = VNone) -> (forall q x, at_path (filled none t v) q = Some x -> f (Some (p ++ q)%list) = x) -> vmap f (address t p) = filled none t v.
Proof.
  intros N. induction t as [|k fs IH] using ty_ind'; intros v p T H.
  - cbn [address vmap filled]. destruct v; [|destruct T as [[]|T]|destruct T as [[]|T]; discriminate].
    + f_equal. rewrite <- (app_nil_r p). now apply H.
    + f_equal. rewrite <- (app_nil_r p). now apply H.
  - rewrite address_node, filled_node. cbn [vmap]. f_equal. rewrite filled_node in H.
    assert (T' : typed (Node k fs) v) by (destruct T as [T| ->]; [exact T|exact I]).
    destruct (kids_typed k fs v T') as [L K]. revert L K H. generalize (kids fs v). intros vs.
    assert (G : forall fs' vs' off, (forall n r t, In (n, r, t) fs' -> In (n, r, t) fs) -> List.length vs' = List.length fs' ->
      (forall i n r t, nth_error fs' i = Some (n, r, t) -> exists w, nth_error vs' i = Some w /\ (typed t w \/ w = VNone)) ->
      (forall i q w x, nth_error (filled_fields none fs' vs') i = Some w -> at_path w q = Some x -> f (Some (p ++ (off + i)%nat :: q)%list) = x) ->
      map (vmap f) (address_go p off fs') = filled_fields none fs' vs').
    { clear -IH N. intros fs'. induction fs' as [|[[n r] t] fs' IHf]; intros vs' off Hin L K H; [reflexivity|]. destruct vs' as [|v' vs']; [discriminate L|].
      cbn [address_go map filled_fields]. f_equal.
      - destruct (K 0%nat n r t eq_refl) as (w & [= ->] & Tw). apply (IH n r t); [apply Hin; now left|exact Tw|]. intros q x Hq.
        rewrite <- app_assoc. cbn [app]. specialize (H 0%nat q _ x eq_refl Hq). now rewrite Nat.add_0_r in H.
      - apply IHf; [intros n' r' t' H'; apply (Hin n' r'); now right|now injection L|intros i n' r' t' Hi; exact (K (S i) n' r' t' Hi)|].
        intros i q w x Hi Hq. specialize (H (S i) q w x Hi Hq). now rewrite Nat.add_succ_r in H. }
    intros L K H. apply G; auto. intros i q w x Hi Hq. cbn [Nat.add]. apply (H (i :: q) x). cbn [at_path]. now rewrite Hi.
Qed.
Lemma addresses_filled {V} (none : V) c vs : instance c vs -> map (vmap (pick none (filled_fields none (cfields c) vs))) (addresses 0 (cfields c)) = filled_fields none (cfields c) vs.
Proof.
  intros [T _]. assert (A : vmap (pick none (filled_fields none (cfields c) vs)) (address (Node false (cfields c)) []) = filled none (Node false (cfields c)) (VNode vs)).
  { apply address_filled; [reflexivity|left; now apply typed_node|]. intros q x Hq. cbn [app]. unfold pick. rewrite filled_node in Hq. cbn [kids] in Hq. now rewrite Hq. }
  rewrite address_node, filled_node in A. cbn [vmap kids] in A. injection A as A. now rewrite addresses_go.
Qed.
(** The round trip of any instance of an unshadowed component. *)
Theorem round_trip {V} (none : V) c vs : unshadowed c -> instance c vs -> from_dict c (to_flatten_dict none c vs) = Ok (filled_fields none (cfields c) vs).
Proof.
  intros U I. rewrite <- (filled_flat none c vs I). set (ws := filled_fields none (cfields c) vs). pose proof (addresses_filled none c vs I) as A. fold ws in A.
  rewrite <- A at 1. change none with (pick none ws None) at 1. rewrite to_flatten_map, from_dict_map, U. cbn [rmap]. now rewrite A.
Qed.
Theorem round_trip_full {V} (none : V) c vs : unshadowed c -> instance c vs -> forallb full vs = true -> from_dict c (to_flatten_dict none c vs) = Ok vs.
Proof. intros U I F. rewrite round_trip by assumption. f_equal. apply filled_fields_full; [apply I|exact F]. Qed.
(** Conversely, a component with a round trip for all instances is unshadowed. *)
Lemma address_typed t : forall p, typed t (address t p) /\ full (address t p) = true /\ address t p <> VNone.
Proof.
  induction t as [|k fs IH] using ty_ind'; intros p; [repeat split; discriminate|]. rewrite address_node, typed_node. cbn [full].
  split; [|split; [|discriminate]].
  - generalize 0%nat. induction fs as [|[[n r] t] fs IHf]; intros i; [exact I|]. cbn [address_go typed_fields]. split; [apply (IH n r t (or_introl eq_refl))|]. apply IHf. intros n' r' t' H. apply (IH n' r'). now right.
  - generalize 0%nat. induction fs as [|[[n r] t] fs IHf]; intros i; [reflexivity|]. cbn [address_go forallb]. apply andb_true_intro. split; [apply (IH n r t (or_introl eq_refl))|]. apply IHf. intros n' r' t' H. apply (IH n' r'). now right.
Qed.
Lemma addresses_keys fs : forall i, keys_present fs (addresses i fs).
Proof. induction fs as [|[[n r] t] fs IH]; intros i; [exact I|]. cbn [addresses keys_present]. split; [intros _; apply address_typed|apply IH]. Qed.
Theorem unshadowed_iff c : unshadowed c <-> forall V (none : V) vs, instance c vs -> forallb full vs = true -> from_dict c (to_flatten_dict none c vs) = Ok vs.
Proof.
  split; [intros U V none vs; now apply round_trip_full|]. intros H. unfold unshadowed.
  destruct (address_typed (Node false (cfields c)) []) as (T & F & _). rewrite address_node, <- addresses_go in T, F. rewrite typed_node in T. apply H; [|exact F].
  split; [exact T|apply addresses_keys].
Qed.
(** ** The columns are those of the schema *)
Lemma dset_new {V} k (x : V) d : ~ In k (map fst d) -> map fst (dset k x d) = (map fst d ++ [k])%list.
Proof.
  induction d as [|[k' x'] d IH]; intros H; [reflexivity|]. cbn [dset]. destruct (String.eqb_spec k k') as [->|N]; [elim H; now left|].
  cbn [map fst app]. f_equal. apply IH. intros H'. apply H. now right.
Qed.
Lemma nodup_app_l {A} (a b : list A) : NoDup (a ++ b) -> NoDup a.
Proof. induction a as [|x a IH]; intros H; [constructor|]. inversion H as [|? ? H1 H2]; subst. constructor; [|now apply IH]. intros Hx. apply H1, in_or_app. now left. Qed.
Lemma flat_names {V} (none : V) t : forall v path cols, (typed t v \/ v = VNone) -> NoDup (map fst cols ++ schema_cols t path) -> map fst (flat none t v path cols) = (map fst cols ++ schema_cols t path)%list.
Proof.
  induction t as [|k fs IH] using ty_ind'; intros v path cols T N.
  - cbn [flat schema_cols] in *. apply dset_new. apply NoDup_remove_2 in N. rewrite app_nil_r in N. exact N.
  - rewrite flat_node. cbn [schema_cols] in *. assert (T' : typed (Node k fs) v) by (destruct T as [T| ->]; [exact T|exact I]).
    destruct (kids_typed k fs v T') as [L K]. revert L K. generalize (kids fs v). clear T T'. revert cols N. induction fs as [|[[n r] t] fs IHf]; intros cols N vs L K.
    + cbn. now rewrite app_nil_r.
    + destruct vs as [|w vs]; [discriminate L|]. cbn [flat_go map concat fst snd] in *. rewrite app_assoc in N. destruct (K 0%nat n r t eq_refl) as (w' & [= <-] & Tw).
      pose proof (IH n r t (or_introl eq_refl) w (path ++ [plain_name n r])%list cols Tw (nodup_app_l _ _ N)) as E.
      rewrite app_assoc, <- E. rewrite <- E in N. apply IHf; [intros n' r' t' H'; apply (IH n' r'); now right|exact N|now injection L|]. intros i n' r' t' Hi. exact (K (S i) n' r' t' Hi).
Qed.
Theorem columns_are_schema {V} (none : V) c vs : instance c vs -> NoDup (schema c) -> map fst (to_flatten_dict none c vs) = schema c.
Proof.
  intros [T K] N. unfold to_flatten_dict, schema in *. enough (G : forall fs vs (cols : dict V), typed_fields fs vs -> keys_present fs vs ->
    NoDup (map fst cols ++ concat (map (fun f => schema_cols (snd f) [comp_name (cname c) (fst (fst f)) (snd (fst f)) (is_key (snd f))]) fs)) ->
    map fst (flat_fields none (cname c) fs vs cols) = (map fst cols ++ concat (map (fun f => schema_cols (snd f) [comp_name (cname c) (fst (fst f)) (snd (fst f)) (is_key (snd f))]) fs))%list) by (now apply (G _ _ [])).
  clear. intros fs. induction fs as [|[[n r] t] fs IH]; intros vs cols T K N; destruct vs as [|v vs]; cbn [typed_fields] in T; try contradiction; [cbn; now rewrite app_nil_r|].
  destruct T as [T1 T2]. cbn [keys_present] in K. destruct K as [K1 K2]. cbn [flat_fields map concat fst snd] in *. rewrite app_assoc in N.
  assert (E : is_key_value t v = is_key t) by (destruct v; try reflexivity; cbn [is_key_value]; destruct (is_key t); [now elim K1|reflexivity]).
  rewrite E. pose proof (flat_names none t v [comp_name (cname c) n r (is_key t)] cols (or_introl T1) (nodup_app_l _ _ N)) as F.
  rewrite app_assoc, <- F. rewrite <- F in N. now apply IH.
Qed.
(** ** The component classes of the dataset *)
Lemma all_unshadowed : forall c, In c components -> unshadowed c.
Proof. unfold components. intros c H. repeat (destruct H as [<-|H]; [vm_compute; reflexivity|]). destruct H. Qed.
Fixpoint nodupb (l : list string) : bool := match l with [] => true | x :: l' => negb (existsb (String.eqb x) l') && nodupb l' end.
Lemma nodupb_ok l : nodupb l = true -> NoDup l.
Proof.
  induction l as [|x l IH]; intros H; [constructor|]. cbn [nodupb] in H. apply andb_prop in H. destruct H as [H1 H2]. constructor; [|now apply IH].
  intros Hx. apply Bool.negb_true_iff in H1. assert (existsb (String.eqb x) l = true); [|congruence]. apply existsb_exists. exists x. split; [exact Hx|apply String.eqb_refl].
Qed.
Lemma all_nodup : forall c, In c components -> NoDup (schema c).
Proof.
  assert (H : forallb (fun c => nodupb (schema c)) components = true) by (vm_compute; reflexivity). intros c Hc.
  apply nodupb_ok. rewrite forallb_forall in H. now apply H.
Qed.
Definition shared_ok (c c' : component) : bool :=
  String.eqb (cname c) (cname c') || forallb (fun x => negb (existsb (String.eqb x) (schema c')) || match strip "key." x with Some _ => true | None => false end) (schema c).
Lemma strip_spec p : forall k r, strip p k = Some r -> k = p ++ r.
Proof. induction p as [|a p IH]; intros k r H; cbn [strip] in H; [now injection H|]. destruct k as [|b k]; [discriminate|]. destruct (Ascii.eqb_spec a b) as [->|]; [|discriminate]. cbn. f_equal. now apply IH. Qed.
Lemma all_shared : forall c c' x, In c components -> In c' components -> cname c <> cname c' -> In x (schema c) -> In x (schema c') -> exists r, x = "key." ++ r.
Proof.
  assert (H : forallb (fun c => forallb (shared_ok c) components) components = true) by (vm_compute; reflexivity).
  intros c c' x Hc Hc' N Hx Hx'. rewrite forallb_forall in H. specialize (H c Hc). cbv beta in H. rewrite forallb_forall in H. specialize (H c' Hc').
  unfold shared_ok in H. apply Bool.orb_true_iff in H. destruct H as [H|H]; [apply String.eqb_eq in H; contradiction|].
  rewrite forallb_forall in H. specialize (H x Hx). apply Bool.orb_true_iff in H. destruct H as [H|H].
  - apply Bool.negb_true_iff in H. assert (existsb (String.eqb x) (schema c') = true); [|congruence]. apply existsb_exists. exists x. split; [exact Hx'|apply String.eqb_refl].
  - destruct (strip "key." x) as [r|] eqn:E; [|discriminate]. exists r. now apply strip_spec.
Qed.
Lemma names_distinct : NoDup (map cname components).
Proof. apply nodupb_ok. vm_compute. reflexivity. Qed.
