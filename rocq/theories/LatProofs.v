(** The latency evaluator: outcome, files, crashes and second runs. *)
From Coq Require Import String Permutation.
From Verif Require Import Base ResultLib ListLib MonadLib KpModel KpProofs LatModel LatSpec.
Open Scope list_scope.

Lemma seqb_eq a b : String.eqb a b = true <-> a = b.
Proof. apply String.eqb_eq. Qed.

Section Proofs.
Context {V St : Type} (first_dim : V -> option nat).
Notation path := (LatModel.path).

(** * Fields *)
Lemma set_keys_list {A} k (v : A) d : map fst (dict_set String.eqb k v d) = if in_dec string_dec k (map fst d) then map fst d else map fst d ++ [k].
Proof.
  induction d as [|[c w] d IH]; cbn [dict_set map fst]; [destruct (in_dec _ _ _) as [[]|]; reflexivity|].
  destruct (String.eqb k c) eqn:E; cbn [map fst].
  - apply String.eqb_eq in E. subst c. destruct (in_dec string_dec k (k :: map fst d)) as [_|H]; [reflexivity|]. exfalso. apply H. now left.
  - rewrite IH. apply String.eqb_neq in E. destruct (in_dec string_dec k (map fst d)) as [H|H], (in_dec string_dec k (c :: map fst d)) as [H'|H']; cbn [app]; try reflexivity.
    + exfalso. apply H'. now right.
    + destruct H' as [H'|H']; congruence.
Qed.
Lemma set_in {A} k (v : A) d kv : In kv (dict_set String.eqb k v d) -> kv = (k, v) \/ In kv d.
Proof.
  induction d as [|[c w] d IH]; cbn [dict_set In]; [intros [H|[]]; left; now symmetry|]. destruct (String.eqb k c) eqn:E; cbn [In]; intros [H|H]; auto.
  - apply String.eqb_eq in E. left. congruence.
  - destruct (IH H); auto.
Qed.
Lemma fold_app {A B} (f : A -> B -> result A) l m a : foldM f (l ++ m) a = (do x <- foldM f l a; foldM f m x).
Proof. revert a. induction l as [|b l IH]; intros a; cbn [foldM app bind]; [reflexivity|]. destruct (f a b); cbn [bind]; auto. Qed.
Lemma get_in {A} k (v : A) d : dict_get String.eqb k d = Some v -> In (k, v) d.
Proof. induction d as [|[c w] d IH]; cbn [dict_get In]; [discriminate|]. destruct (String.eqb k c) eqn:E; [apply String.eqb_eq in E; left; congruence|auto]. Qed.
Lemma get_none {A} k (d : list (string * A)) : dict_get String.eqb k d = None <-> ~ In k (map fst d).
Proof.
  induction d as [|[c w] d IH]; cbn [dict_get In map fst]; [tauto|]. destruct (String.eqb k c) eqn:E.
  - apply String.eqb_eq in E. split; [discriminate|]. intros H. exfalso. apply H. left. now symmetry.
  - apply String.eqb_neq in E. rewrite IH. split; [intros H [Q|Q]; [congruence|contradiction]|tauto].
Qed.
Lemma load_given fields (f : frame V) data : load_fields fields (arrays f) = Ok data -> given fields f data.
Proof.
  unfold load_fields, given. revert data. induction fields as [|k fields IH] using rev_ind; intros data H.
  - injection H as <-. split; [reflexivity|]. intros x [].
  - rewrite fold_app in H. apply bind_inv in H. destruct H as (d & Ed & H). cbn [foldM] in H. apply bind_inv in H. destruct H as (d' & E & H). injection H as <-.
    destruct (dict_get String.eqb k (arrays f)) as [v|] eqn:Ek; [|discriminate]. injection E as <-. destruct (IH d Ed) as (K & I). split.
    + rewrite set_keys_list, K, rev_app_distr. cbn [rev app nodup].
      assert (In k (rev (nodup string_dec (rev fields))) <-> In k (rev fields)) as Q by (rewrite <- in_rev, nodup_In; reflexivity).
      destruct (in_dec string_dec k (rev (nodup string_dec (rev fields)))) as [H|H], (in_dec string_dec k (rev fields)) as [H'|H']; tauto || reflexivity.
    + intros x Hx. apply set_in in Hx. destruct Hx as [->|Hx]; [now apply get_in|now apply I].
Qed.
Lemma pairs_unique {A} (l : list (string * A)) k v w : NoDup (map fst l) -> In (k, v) l -> In (k, w) l -> v = w.
Proof.
  intros N Hv Hw. apply (in_get String.eqb seqb_eq) in Hv; [|exact N]. apply (in_get String.eqb seqb_eq) in Hw; [|exact N]. congruence.
Qed.
Lemma given_unique fields (f : frame V) d d' : NoDup (map fst (arrays f)) -> given fields f d -> given fields f d' -> d = d'.
Proof.
  intros N (K & I) (K' & I'). rewrite <- K' in K. clear K'. revert d' K I'. induction d as [|[k v] d IH]; intros [|[k' v'] d'] K I'; try discriminate; [reflexivity|].
  cbn [map fst] in K. injection K as -> K. f_equal; [f_equal; apply (pairs_unique (arrays f) k'); [exact N|apply I; now left|apply I'; now left]|].
  apply IH; [intros x Hx; apply I; now right|exact K|intros x Hx; apply I'; now right].
Qed.
Lemma given_load fields (f : frame V) data : NoDup (map fst (arrays f)) -> given fields f data -> load_fields fields (arrays f) = Ok data.
Proof.
  intros N G. destruct (load_fields fields (arrays f)) as [d|e] eqn:E.
  - f_equal. apply (given_unique fields f); [exact N|now apply load_given|exact G].
  - exfalso. destruct G as (K & I). assert (forall k, In k fields -> exists v, dict_get String.eqb k (arrays f) = Some v) as W.
    { intros k Hk. destruct (dict_get String.eqb k (arrays f)) as [v|] eqn:Ek; [eauto|]. apply get_none in Ek. exfalso. apply Ek.
      assert (In k (map fst data)) as Hd by (rewrite K, <- in_rev, nodup_In, <- in_rev; exact Hk). apply in_map_iff in Hd. destruct Hd as (x & <- & Hx). apply in_map. now apply I. }
    clear K I data N. unfold load_fields in E. revert E. generalize (@nil (string * V)). induction fields as [|k fields IH]; intros d E; cbn [foldM] in E; [discriminate|].
    destruct (W k (or_introl eq_refl)) as (v & Ev). rewrite Ev in E. cbn [bind] in E. apply IH in E; [exact E|]. intros; apply W; now right.
Qed.

(** * Outputs *)
Lemma shape_inv k out n : shape0 first_dim k out = Ok n -> exists v, In (k, v) out /\ first_dim v = Some n.
Proof.
  unfold shape0. destruct (dict_get String.eqb k out) as [v|] eqn:E; [|discriminate]. destruct (first_dim v) as [m|] eqn:Em; [|discriminate]. intros [= <-]. exists v. split; [now apply get_in|exact Em].
Qed.
Lemma shape_make k out v n : NoDup (map fst out) -> In (k, v) out -> first_dim v = Some n -> shape0 first_dim k out = Ok n.
Proof. intros N H E. unfold shape0. apply (in_get String.eqb seqb_eq) in H; [|exact N]. now rewrite H, E. Qed.
Lemma keys_ok out : keys_match (V := V) out = true <-> incl (map fst out) KEYS /\ incl KEYS (map fst out).
Proof.
  unfold keys_match. rewrite andb_true_iff, !forallb_forall. split; intros (A & B); split.
  - intros k Hk. apply in_map_iff in Hk. destruct Hk as (kv & <- & Hk). apply A in Hk. apply existsb_exists in Hk. destruct Hk as (k' & Hk & E). apply String.eqb_eq in E. now rewrite E.
  - intros k Hk. apply B in Hk. apply existsb_exists in Hk. destruct Hk as (k' & Hk & E). apply String.eqb_eq in E. now rewrite E.
  - intros kv Hk. apply existsb_exists. exists (fst kv). split; [now apply A, in_map|apply String.eqb_refl].
  - intros k Hk. apply existsb_exists. exists k. split; [now apply B|apply String.eqb_refl].
Qed.
Lemma keys_nodup : NoDup KEYS.
Proof. unfold KEYS. repeat (constructor; [cbn; intuition discriminate|]). constructor. Qed.
Theorem check_exact out : check_output first_dim out = Ok tt <-> detections first_dim out.
Proof.
  split.
  - unfold check_output. destruct (Nat.eqb (length out) 3) eqn:L; [|discriminate]. cbn [negb]. apply Nat.eqb_eq in L. destruct (keys_match out) eqn:K; [|discriminate]. cbn [negb]. apply keys_ok in K. destruct K as (K1 & K2).
    intros H. apply bind_inv in H. destruct H as (n & Eb & H). apply bind_inv in H. destruct H as (m & Es & H). destruct (Nat.eqb m n) eqn:E1; [|discriminate]. cbn [negb] in H. apply bind_inv in H. destruct H as (m' & Ec & H).
    destruct (Nat.eqb m' n) eqn:E2; [|discriminate]. apply Nat.eqb_eq in E1, E2. subst m m'.
    apply shape_inv in Eb, Es, Ec. destruct Eb as (b & Hb & Nb), Es as (s & Hs & Ns), Ec as (c & Hc & Nc). exists b, s, c, n. split; [|auto].
    symmetry. apply NoDup_Permutation_bis.
    + repeat (constructor; [cbn; intuition discriminate|]). constructor.
    + rewrite L. cbn [length]. lia.
    + intros x [<-|[<-|[<-|[]]]]; assumption.
  - intros (b & s & c & n & P & Nb & Ns & Nc). assert (NoDup (map fst out)) as N by (apply (Permutation_NoDup (l := KEYS)); [symmetry; apply (Permutation_map fst P)|apply keys_nodup]).
    assert (Permutation (map fst out) KEYS) as PK by (apply (Permutation_map fst P)).
    assert (forall x, In x [("boxes"%string, b); ("scores"%string, s); ("classes"%string, c)] -> In x out) as I by (intros x; apply Permutation_in; now symmetry).
    unfold check_output. rewrite (Permutation_length P). cbn [length Nat.eqb negb].
    assert (keys_match out = true) as -> by (apply keys_ok; split; intros k; apply Permutation_in; [exact PK|now symmetry]). cbn [negb].
    rewrite (shape_make "boxes" out b n N) by (auto; apply I; cbn; auto). cbn [bind]. rewrite (shape_make "scores" out s n N) by (auto; apply I; cbn; auto). cbn [bind]. rewrite Nat.eqb_refl. cbn [negb].
    rewrite (shape_make "classes" out c n N) by (auto; apply I; cbn; auto). cbn [bind]. now rewrite Nat.eqb_refl.
Qed.
Lemma check_none out : (exists e, check_output first_dim out = Err e) <-> ~ detections first_dim out.
Proof. rewrite <- check_exact. destruct (check_output first_dim out) as [[]|e]; split; intros H; [destruct H; discriminate|exfalso; now apply H|discriminate|eauto]. Qed.

(** * The trace *)
Definition example_trace (sub : submission V St) (f : frame V) (o : called V St) : list (effect V) :=
  flat_map (save (context f) (timestamp f)) (output o) ++ write (File (context f) (timestamp f) "input_fields.txt") (Lines (data_fields sub)).
Definition made_dir (f : frame V) : effect V := Mkdir (Dir (context f) (timestamp f)).
Definition frame_trace sub f o : list (effect V) := made_dir f :: example_trace sub f o.
Definition traces (sub : submission V St) (fs : list (frame V)) (os : list (called V St)) : list (effect V) := concat (map (fun fo => frame_trace sub (fst fo) (snd fo)) (combine fs os)).

Lemma example_cases sub st f : NoDup (map fst (arrays f)) ->
  (exists o, good_call first_dim sub st f o /\ process_example first_dim sub st (context f) (timestamp f) (arrays f) = (example_trace sub f o, Ok (next o, (toc o - tic o)%Z))) \/
  (exists e, (forall o, ~ good_call first_dim sub st f o) /\ process_example first_dim sub st (context f) (timestamp f) (arrays f) = ([], Err e)).
Proof.
  intros N. unfold process_example, then_, lift, emit, ret. cbn [fst snd]. destruct (load_fields (data_fields sub) (arrays f)) as [data|e] eqn:El; cbn [fst snd].
  2:{ right. exists e. split; [|reflexivity]. intros o (data & G & _). rewrite (given_load _ _ _ N G) in El. discriminate. }
  destruct (run_model sub st data) as [o|e] eqn:Er; cbn [fst snd app].
  2:{ right. exists e. split; [|reflexivity]. intros o (data' & G & R & _). apply load_given in El. rewrite (given_unique _ _ _ _ N G El) in R. congruence. }
  destruct (check_output first_dim (output o)) as [[]|e] eqn:Ec; cbn [fst snd app].
  - left. exists o. split; [exists data; split; [now apply load_given|split; [exact Er|now apply check_exact]]|]. rewrite app_nil_r. reflexivity.
  - right. exists e. split; [|reflexivity]. intros o' (data' & G & R & D). apply load_given in El. rewrite (given_unique _ _ _ _ N G El) in R. assert (o' = o) by congruence. subst o'. apply check_exact in D. congruence.
Qed.

(** One loop over the frames. *)
Fixpoint loop (sub : submission V St) (l : list (frame V)) (st : St) (lats : list Z) : io (V := V) (St * list Z) :=
  match l with
  | [] => ret (st, lats)
  | f :: l => then_ (emit [made_dir f]) (fun _ => then_ (process_example first_dim sub st (context f) (timestamp f) (arrays f)) (fun r => loop sub l (fst r) (lats ++ [snd r])))
  end.
Lemma then_assoc {A B C} (m : io (V := V) A) (f : A -> io B) (g : B -> io C) : then_ (then_ m f) g = then_ m (fun a => then_ (f a) g).
Proof. destruct m as [tr [a|e]]; cbn; [|reflexivity]. destruct (f a) as [tr' [b|e]]; cbn; [now rewrite app_assoc|reflexivity]. Qed.
Lemma then_ext {A B} (m : io (V := V) A) (f g : A -> io B) : (forall a, f a = g a) -> then_ m f = then_ m g.
Proof. intros E. destruct m as [tr [a|e]]; cbn; [now rewrite E|reflexivity]. Qed.
Lemma loop_app sub l m : forall st lats, loop sub (l ++ m) st lats = then_ (loop sub l st lats) (fun r => loop sub m (fst r) (snd r)).
Proof.
  induction l as [|f l IH]; intros st lats; cbn [loop app]; [destruct (loop sub m st lats) eqn:E; unfold then_, ret; cbn [fst snd app]; now rewrite E|].
  rewrite then_assoc. apply then_ext. intros _. rewrite then_assoc. apply then_ext. intros r. apply IH.
Qed.
Lemma context_loop sub c l : forall st lats, process_context first_dim sub c l st lats =
  loop sub (map (fun f => {| context := c; timestamp := f_name f; arrays := f_files f |}) (filter f_is_dir l)) st lats.
Proof.
  induction l as [|f l IH]; intros st lats; cbn [process_context filter]; [reflexivity|]. destruct (f_is_dir f); cbn [negb]; [|apply IH].
  cbn [map loop context timestamp arrays]. apply then_ext. intros _. apply then_ext. intros r. apply IH.
Qed.
Lemma contexts_loop sub l : forall st lats, process_contexts first_dim sub l st lats = loop sub (frames l) st lats.
Proof.
  unfold frames. induction l as [|c l IH]; intros st lats; cbn [process_contexts filter]; [reflexivity|]. destruct (c_is_dir c); cbn [negb]; [|apply IH].
  cbn [flat_map]. rewrite loop_app, context_loop. apply then_ext. intros r. apply IH.
Qed.
Definition elapsed (o : called V St) : Z := (toc o - tic o)%Z.
Lemma loop_cases sub l : Forall (fun f => NoDup (map fst (arrays f))) l -> forall st lats,
  (exists os st', runs first_dim sub st l os st' /\ loop sub l st lats = (traces sub l os, Ok (st', lats ++ map elapsed os))) \/
  (exists e before f rest os st', l = before ++ f :: rest /\ runs first_dim sub st before os st' /\ (forall o, ~ good_call first_dim sub st' f o) /\
     loop sub l st lats = (traces sub before os ++ [made_dir f], Err e)).
Proof.
  induction l as [|f l IH]; intros N st lats.
  - left. exists [], st. split; [constructor|]. cbn. now rewrite app_nil_r.
  - inversion N as [|f' l' Nf Nl]; subst. cbn [loop]. destruct (example_cases sub st f Nf) as [(o & G & E)|(e & G & E)]; unfold emit, then_; cbn [fst snd]; rewrite E; cbn [fst snd].
    + destruct (IH Nl (next o) (lats ++ [(toc o - tic o)%Z])) as [(os & st' & R & E')|(e & before & f0 & rest & os & st' & -> & R & B & E')].
      * left. exists (o :: os), st'. split; [now constructor|]. rewrite E'. cbn [fst snd map]. rewrite <- app_assoc. unfold traces. cbn [combine map concat fst snd]. reflexivity.
      * right. exists e, (f :: before), f0, rest, (o :: os), st'. split; [reflexivity|]. split; [now constructor|]. split; [exact B|]. rewrite E'. cbn [fst snd]. unfold traces. cbn [combine map concat fst snd].
        unfold frame_trace. cbn [app]. now rewrite !app_assoc.
    + right. exists e, [], f, l, [], st. split; [reflexivity|]. split; [constructor|]. split; [exact G|]. reflexivity.
Qed.
Lemma evaluator_cases sub input st : listing input -> initialize sub = Ok st ->
  (exists os st', runs first_dim sub st (frames input) os st' /\
     evaluator first_dim sub input = (traces sub (frames input) os ++ write LatencyFile (Numbers (map elapsed os)), Ok tt)) \/
  (exists e before f rest os st', frames input = before ++ f :: rest /\ runs first_dim sub st before os st' /\ (forall o, ~ good_call first_dim sub st' f o) /\
     evaluator first_dim sub input = (traces sub before os ++ [made_dir f], Err e)).
Proof.
  intros (_ & N) E. unfold evaluator. rewrite E. unfold lift, then_, emit. cbn [fst snd app].
  rewrite (contexts_loop sub input st []).
  destruct (loop_cases sub (frames input) N st []) as [(os & st' & R & El)|(e & before & f & rest & os & st' & Ef & R & B & El)]; rewrite El; cbn [fst snd].
  - left. exists os, st'. split; [exact R|]. reflexivity.
  - right. exists e, before, f, rest, os, st'. split; [exact Ef|]. split; [exact R|]. split; [exact B|]. reflexivity.
Qed.

(** * Files *)
Definition target (e : effect V) : path := match e with Mkdir p | Create p | Fill p _ => p end.
Lemma after_app l m (fs : files V) : after (l ++ m) fs = after m (after l fs).
Proof. apply fold_left_app. Qed.
Lemma untouched l : forall (fs : files V) p, ~ In p (map target l) -> after l fs p = fs p.
Proof.
  induction l as [|e l IH]; intros fs p H; [reflexivity|]. cbn [map In] in H. change (after (e :: l) fs) with (after l (apply_effect fs e)). rewrite IH by tauto.
  assert (target e <> p) as Np by tauto. destruct e; cbn [target apply_effect] in *; unfold set_file; destruct (path_dec _ _); congruence.
Qed.
Lemma last_wins l e m (fs : files V) p : target e = p -> ~ In p (map target m) -> after (l ++ e :: m) fs p = match e with Mkdir _ => Some Made | Create _ => Some Partial | Fill _ x => Some x end.
Proof.
  intros <- H. rewrite after_app. change (after (e :: m) (after l fs)) with (after m (apply_effect (after l fs) e)). rewrite untouched by exact H.
  destruct e; cbn [target apply_effect]; unfold set_file; destruct (path_dec _ _); congruence.
Qed.
(** Files that differ give the same files where something is written. *)
Lemma forgets l p : In p (map target l) -> forall fs fs' : files V, after l fs p = after l fs' p.
Proof.
  intros H fs fs'. assert (exists a e b, l = a ++ e :: b /\ target e = p /\ ~ In p (map target b)) as (a & e & b & -> & E & Nb).
  { clear -H. induction l as [|e l IH]; [destruct H|]. destruct (in_dec path_dec p (map target l)) as [I|I].
    - destruct (IH I) as (a & e' & b & -> & E & N). exists (e :: a), e', b. auto.
    - destruct H as [H|H]; [|contradiction]. exists [], e, l. auto. }
  rewrite !(last_wins _ _ _ _ _ E Nb). reflexivity.
Qed.
Lemma save_targets c t out p : In p (map target (flat_map (save (V := V) c t) out)) -> exists k, In k (map fst out) /\ p = File c t (k ++ ".npy").
Proof.
  intros H. apply in_map_iff in H. destruct H as (e & <- & H). apply in_flat_map in H. destruct H as ((k & v) & Hk & H). exists k. split; [now apply (in_map fst) in Hk|].
  destruct H as [<-|[<-|[]]]; reflexivity.
Qed.
Lemma frame_targets sub f o p : In p (map target (frame_trace sub f o)) -> of_frame f p.
Proof.
  unfold frame_trace, example_trace. cbn [map In]. intros [<-|H]; [now left|]. rewrite map_app, in_app_iff in H. right. destruct H as [H|H].
  - apply save_targets in H. destruct H as (k & _ & ->). eauto.
  - destruct H as [<-|[<-|[]]]; eexists; reflexivity.
Qed.
Lemma traces_targets sub fs os p : In p (map target (traces sub fs os)) -> exists f, In f fs /\ of_frame f p.
Proof.
  intros H. unfold traces in H. apply in_map_iff in H. destruct H as (e & <- & H). apply in_concat in H. destruct H as (l & Hl & He). apply in_map_iff in Hl. destruct Hl as ((f & o) & <- & Hf).
  exists f. split; [now apply in_combine_l in Hf|]. apply (frame_targets sub f o). cbn [fst snd] in He. now apply in_map.
Qed.
Lemma frames_apart (f g : frame V) p : of_frame f p -> of_frame g p -> place f = place g.
Proof. unfold place. intros [->|(n & ->)] [H|(m & H)]; congruence. Qed.
Lemma not_latency f : ~ of_frame (V := V) f LatencyFile.
Proof. intros [H|(n & H)]; discriminate. Qed.
Lemma append_npy a b : (a ++ ".npy" = b ++ ".npy" -> a = b)%string.
Proof.
  revert b. induction a as [|x a IH]; intros [|y b] H; cbn in H.
  - reflexivity.
  - exfalso. apply (f_equal String.length) in H. cbn in H. assert (String.length (b ++ ".npy") = String.length b + 4)%nat as L by (clear; induction b; cbn; congruence). rewrite L in H. lia.
  - exfalso. apply (f_equal String.length) in H. cbn in H. assert (String.length (a ++ ".npy") = String.length a + 4)%nat as L by (clear; induction a; cbn; congruence). rewrite L in H. lia.
  - injection H as -> H. f_equal. now apply IH.
Qed.
Lemma frame_complete sub f o (fs : files V) : detections first_dim (output o) -> complete sub (after (frame_trace sub f o) fs) f o.
Proof.
  intros (b & s & c & n & P & _). assert (NoDup (map fst (output o))) as N by (apply (Permutation_NoDup (l := KEYS)); [symmetry; apply (Permutation_map fst P)|apply keys_nodup]).
  assert (forall k, In k (map fst (output o)) -> In k KEYS) as IK by (intros k; apply Permutation_in, (Permutation_map fst P)).
  unfold frame_trace, example_trace, made_dir. split; [|split].
  - apply (last_wins [] (Mkdir (Dir (context f) (timestamp f)))); [reflexivity|]. rewrite map_app, in_app_iff. intros [H|H].
    + apply save_targets in H. destruct H as (k & _ & H). discriminate.
    + destruct H as [H|[H|[]]]; discriminate.
  - unfold write. change (?a :: ?l ++ [?x; ?y]) with ((a :: l) ++ [x] ++ [y]). rewrite app_assoc. apply (last_wins _ (Fill (File (context f) (timestamp f) "input_fields.txt") (Lines (data_fields sub))) []); [reflexivity|intros []].
  - intros k v Hk. apply in_split in Hk. destruct Hk as (l1 & l2 & E). rewrite E in *. rewrite flat_map_app. cbn [flat_map]. unfold save at 2, write at 1. cbn [fst snd app].
    rewrite map_app in N. cbn [map fst] in N.
    assert (~ In k (map fst l2)) as Nk by (apply NoDup_remove_2 in N; intros Q; apply N; apply in_app_iff; now right).
    assert (k ++ ".npy" <> "input_fields.txt")%string as Nf.
    { assert (In k KEYS) as Hk by (apply IK; rewrite map_app; apply in_app_iff; right; now left). destruct Hk as [<-|[<-|[<-|[]]]]; discriminate. }
    replace (Mkdir (Dir (context f) (timestamp f)) :: (flat_map (save (context f) (timestamp f)) l1 ++ Create (File (context f) (timestamp f) (k ++ ".npy")) :: Fill (File (context f) (timestamp f) (k ++ ".npy")) (Array v) :: flat_map (save (context f) (timestamp f)) l2) ++ write (File (context f) (timestamp f) "input_fields.txt") (Lines (data_fields sub)))
      with ((Mkdir (Dir (context f) (timestamp f)) :: flat_map (save (context f) (timestamp f)) l1 ++ [Create (File (context f) (timestamp f) (k ++ ".npy"))]) ++ Fill (File (context f) (timestamp f) (k ++ ".npy")) (Array v) :: flat_map (save (context f) (timestamp f)) l2 ++ write (File (context f) (timestamp f) "input_fields.txt") (Lines (data_fields sub)))
      by (cbn [app]; rewrite <- !app_assoc; reflexivity).
    apply (last_wins _ (Fill (File (context f) (timestamp f) (k ++ ".npy")) (Array v))); [reflexivity|]. rewrite map_app, in_app_iff. intros [H|H].
    + apply save_targets in H. destruct H as (k' & Hk' & H). injection H as H. apply append_npy in H. now subst.
    + destruct H as [H|[H|[]]]; injection H as H; congruence.
Qed.
Lemma complete_same (sub : submission V St) (fs fs' : files V) f o : same_on (of_frame f) fs fs' -> complete sub fs f o -> complete sub fs' f o.
Proof.
  intros E (A & B & C). split; [|split].
  - rewrite <- E; [exact A|now left].
  - rewrite <- E; [exact B|right; eauto].
  - intros k v H. rewrite <- E; [now apply C|right; eauto].
Qed.
Lemma runs_length (sub : submission V St) st l os st' : runs first_dim sub st l os st' -> length os = length l.
Proof. induction 1; cbn; congruence. Qed.
Lemma runs_complete (sub : submission V St) st l os st' : runs first_dim sub st l os st' -> NoDup (map place l) -> forall fs : files V, Forall2 (complete sub (after (traces sub l os) fs)) l os.
Proof.
  induction 1 as [st|st f l o os st' G R IH]; intros N fs; [constructor|]. cbn [map] in N. apply NoDup_cons_iff in N. destruct N as (Nf & N).
  unfold traces. cbn [combine map concat fst snd]. fold (traces sub l os). rewrite after_app. constructor; [|now apply IH].
  destruct G as (data & _ & _ & D). apply (complete_same sub (after (frame_trace sub f o) fs)); [|now apply frame_complete].
  intros p Hp. symmetry. apply untouched. intros H. apply traces_targets in H. destruct H as (g & Hg & H). apply Nf. rewrite (frames_apart f g p Hp H). now apply in_map.
Qed.
End Proofs.
