From Coq Require Import String Ascii.
From Verif Require Import Base ResultLib StreamModel StreamSpec.
Open Scope list_scope.
Open Scope Z_scope.

Lemma foldM_app {A S} (f : S -> A -> result S) l l' s : foldM f (l ++ l') s = do s' <- foldM f l s; foldM f l' s'.
Proof. revert s. induction l as [|a l IH]; intros s; cbn [foldM app bind]; [reflexivity|]. destruct (f s a); cbn [bind]; auto. Qed.
Lemma same_shape_iff a : forall b, same_shape a b = true <-> a = b.
Proof.
  induction a as [|x a IH]; intros [|y b]; cbn [same_shape]; split; intros H; try reflexivity; try discriminate.
  - apply andb_true_iff in H as [H1 H2]. apply Nat.eqb_eq in H1 as ->. apply IH in H2 as ->. reflexivity.
  - injection H as -> ->. rewrite Nat.eqb_refl. cbn [andb]. apply IH. reflexivity.
Qed.

Theorem update_exact v u t : updated v u = Ok t <->
  exists n rest, shape u = n :: rest /\ (0 < size rest)%nat /\ Nat.divide (size rest) (length (data v)) /\
    t = Tensor ((length (data v) / size rest + n)%nat :: rest) (data v ++ data u).
Proof.
  unfold updated, reshape_rows. split.
  - destruct (Nat.eqb_spec (size (tl (shape u))) 0) as [E|E]; [discriminate|].
    destruct (Nat.eqb_spec (length (data v) mod size (tl (shape u))) 0) as [D|D]; cbn [negb bind]; [|discriminate].
    unfold concat_rows. cbn [shape data]. destruct (shape u) as [|n rest] eqn:S; [discriminate|]. cbn [tl] in *.
    rewrite (proj2 (same_shape_iff rest rest) eq_refl). intros [= <-].
    exists n, rest. split; [reflexivity|]. split; [lia|]. split; [|reflexivity]. apply Nat.mod_divide; assumption.
  - intros (n & rest & S & P & D & ->). rewrite S. cbn [tl].
    destruct (Nat.eqb_spec (size rest) 0) as [E|E]; [lia|].
    apply Nat.mod_divide in D; [|lia]. rewrite D. cbn [Nat.eqb negb bind].
    unfold concat_rows. rewrite S. cbn [shape data]. rewrite (proj2 (same_shape_iff rest rest) eq_refl). reflexivity.
Qed.

Lemma same_family_iff f g : same_family f g = true <-> f = g.
Proof. destruct f, g; cbn; split; congruence. Qed.
Lemma variable_name_inj f g x y : variable_name f x = variable_name g y -> f = g /\ x = y.
Proof.
  unfold variable_name, scope. destruct f, g; cbn; intros H; try discriminate;
    (split; [reflexivity|]); injection H as H; exact H.
Qed.

Lemma put_same s k t : put s k t k = Some t.
Proof. unfold put. rewrite String.eqb_refl. reflexivity. Qed.
Lemma put_other s k t k' : k' <> k -> put s k t k' = s k'.
Proof. unfold put. intros N. apply String.eqb_neq in N. rewrite N. reflexivity. Qed.

Lemma fed_app f x h1 : forall h2 acc, fed f x (h1 ++ h2) acc = fed f x h2 (fed f x h1 acc).
Proof. induction h1 as [|[g d|g c b] h1 IH]; intros; cbn [fed app]; auto. Qed.

(** Initialisation of one family. *)
Lemma empty_ok t : empty (0 :: map Z.of_nat t) = Ok (Tensor (0%nat :: t) []).
Proof.
  unfold empty. cbn [existsb]. replace (existsb (fun z => z <? 0) (map Z.of_nat t)) with false.
  - cbn [orb Z.ltb Z.compare map Z.to_nat]. rewrite map_map.
    replace (map (fun x => Z.to_nat (Z.of_nat x)) t) with t by (rewrite <- (map_id t) at 1; apply map_ext; intros; lia).
    reflexivity.
  - symmetry. apply not_true_is_false. rewrite existsb_exists. intros (z & I & L). apply in_map_iff in I as (n & <- & _). lia.
Qed.
Lemma init_ok f l : forall s, NoDup (map fst l) ->
  exists s', initialize f s (map (fun f => (fst f, 0 :: map Z.of_nat (snd f))) l) = Ok s' /\
    (forall x t, In (x, t) l -> s' (variable_name f x) = Some (Tensor (0%nat :: t) [])) /\
    (forall k, (forall x, In x (map fst l) -> k <> variable_name f x) -> s' k = s k).
Proof.
  induction l as [|[x t] l IH]; intros s N.
  - exists s. split; [reflexivity|]. split; [intros ? ? []|reflexivity].
  - cbn [map fst snd] in *. unfold initialize. cbn [foldM fst snd]. rewrite empty_ok. cbn [bind].
    inversion N as [|? ? N1 N2]; subst.
    destruct (IH (put s (variable_name f x) (Tensor (0%nat :: t) [])) N2) as (s' & E & A & B).
    exists s'. split; [exact E|]. split.
    + intros y u [I|I]; [|exact (A y u I)]. injection I as <- <-. rewrite B; [apply put_same|].
      intros y I Q. apply variable_name_inj in Q as [_ <-]. exact (N1 I).
    + intros k H. rewrite B; [apply put_other; exact (H x (or_introl eq_refl))|]. intros y I. exact (H y (or_intror I)).
Qed.

(** One batch. *)
Lemma given_none x b : ~ In x (map fst b) -> given x b = [].
Proof.
  unfold given. intros N. induction b as [|[y u] b IH]; [reflexivity|]. cbn [filter fst map] in *.
  destruct (String.eqb_spec y x) as [->|H]; [destruct N; left; reflexivity|]. apply IH. intros I. apply N. right. exact I.
Qed.
Lemma batch_names l b : batch_ok l b -> map fst b = map fst l.
Proof. induction 1 as [|? ? ? ? [E _] _ IH]; [reflexivity|]. cbn [map]. rewrite IH, E. reflexivity. Qed.
Lemma divided a n : (0 < n)%nat -> (a * n / n = a)%nat.
Proof. intros H. apply Nat.div_mul. lia. Qed.
Definition holds (s : store) (f : family) (l : layout) (acc : string -> list tensor) : Prop :=
  forall x t, In (x, t) l -> s (variable_name f x) = Some (all_rows t (acc x)) /\
    length (concat (map data (acc x))) = (list_sum (map first_dim (acc x)) * size t)%nat.
Lemma all_rows_app t a n u : shape u = n :: t -> (0 < size t)%nat ->
  length (concat (map data a)) = (list_sum (map first_dim a) * size t)%nat ->
  length (data u) = (n * size t)%nat ->
  updated (all_rows t a) u = Ok (all_rows t (a ++ [u])) /\
  length (concat (map data (a ++ [u]))) = (list_sum (map first_dim (a ++ [u])) * size t)%nat.
Proof.
  intros S P L D.
  assert (F : first_dim u = n) by (unfold first_dim; rewrite S; reflexivity).
  rewrite !map_app, concat_app, list_sum_app, app_length. cbn [map concat list_sum fold_right app].
  rewrite app_nil_r, F, L, D. split; [|lia].
  apply update_exact. exists n, t. split; [exact S|]. split; [exact P|]. unfold all_rows. cbn [data].
  rewrite L, divided by exact P. split; [exists (list_sum (map first_dim a)); lia|].
  rewrite !map_app, concat_app, list_sum_app. cbn [map concat list_sum fold_right]. rewrite app_nil_r, F, Nat.add_0_r. reflexivity.
Qed.
Lemma feed_ok f l : forall b s acc, NoDup (map fst l) -> (forall x t, In (x, t) l -> (0 < size t)%nat) -> batch_ok l b ->
  holds s f l acc ->
  exists s', run_update f s b = Ok s' /\ holds s' f l (fun x => acc x ++ given x b) /\
    (forall k, (forall x, In x (map fst l) -> k <> variable_name f x) -> s' k = s k).
Proof.
  induction l as [|[x t] l IH]; intros b s acc N P B H; inversion B as [|? [y u] ? b' [E (n & S & D)] B']; subst; cbn [fst snd] in *.
  - exists s. split; [reflexivity|]. split; [intros ? ? []|reflexivity].
  - subst y. inversion N as [|? ? N1 N2]; subst.
    destruct (H x t (or_introl eq_refl)) as [G L].
    destruct (all_rows_app t (acc x) n u S (P x t (or_introl eq_refl)) L D) as [U U'].
    unfold run_update. cbn [foldM]. unfold update_variable at 1. cbn [fst snd]. rewrite G, U. cbn [bind].
    destruct (IH b' (put s (variable_name f x) (all_rows t (acc x ++ [u]))) acc N2 (fun y v I => P y v (or_intror I)) B') as (s' & R & H' & O).
    + intros y v I. destruct (H y v (or_intror I)) as [G' L']. split; [|exact L']. rewrite put_other; [exact G'|].
      intros Q. apply variable_name_inj in Q as [_ ->]. apply N1. apply (in_map fst) in I. exact I.
    + assert (Gx : given x ((x, u) :: b') = [u]).
      { unfold given. cbn [filter fst]. rewrite String.eqb_refl. cbn [map snd]. f_equal. apply given_none. rewrite (batch_names _ _ B'). exact N1. }
      exists s'. split; [exact R|]. split.
      * intros y v [I|I].
        -- injection I as <- <-. rewrite Gx. split; [|exact U']. rewrite O; [apply put_same|].
           intros y I Q. apply variable_name_inj in Q as [_ <-]. exact (N1 I).
        -- destruct (H' y v I) as [G' L']. assert (Q : x <> y) by (intros ->; apply N1; apply (in_map fst) in I; exact I).
           replace (given y ((x, u) :: b')) with (given y b').
           ++ split; assumption.
           ++ unfold given. cbn [filter fst]. apply String.eqb_neq in Q. rewrite Q. reflexivity.
      * intros k K. rewrite O; [apply put_other; exact (K x (or_introl eq_refl))|]. intros y I. exact (K y (or_intror I)).
Qed.

Theorem accumulates ls h s0 : (forall f, layout_ok (ls f)) -> history_ok ls h ->
  exists s, run s0 h = Ok s /\
    forall f, (exists d, In (Init f d) h) -> forall x t, In (x, t) (ls f) ->
      s (variable_name f x) = Some (all_rows t (fed f x h [])).
Proof.
  intros LS H.
  cut (exists s, run s0 h = Ok s /\ forall f, (exists d, In (Init f d) h) -> holds s f (ls f) (fun x => fed f x h [])).
  { intros (s & E & A). exists s. split; [exact E|]. intros f I x t J. exact (proj1 (A f I x t J)). }
  induction h as [|e h IH] using rev_ind.
  - exists s0. split; [reflexivity|]. intros f [d []].
  - destruct H as [H1 H2]. destruct IH as (s & E & A).
    { split; [intros e' I; apply H1; apply in_or_app; left; exact I|].
      intros h1 f c b h2 Q. destruct (H2 h1 f c b (h2 ++ [e])) as [d I]; [rewrite Q, <- app_assoc; reflexivity|]. exists d. exact I. }
    unfold run. rewrite foldM_app. change (foldM step h s0) with (run s0 h). rewrite E. cbn [bind foldM].
    assert (OK : event_ok ls e) by (apply H1, in_or_app; right; left; reflexivity).
    destruct e as [g d|g c b]; cbn [event_ok step] in *.
    + red in OK. subst d. destruct (init_ok g (ls g) s (proj1 (LS g))) as (s' & E' & A' & O'). rewrite E'. cbn [bind].
      exists s'. split; [reflexivity|]. intros f I x t J. rewrite fed_app. cbn [fed].
      destruct (same_family f g) eqn:F.
      * apply same_family_iff in F as ->. rewrite (A' x t J). split; reflexivity.
      * assert (I' : exists d, In (Init f d) h).
        { destruct I as [d I]. apply in_app_or in I as [I|[I|[]]]; [exists d; exact I|]. injection I as -> _.
          rewrite (proj2 (same_family_iff f f) eq_refl) in F. discriminate. }
        rewrite O'; [exact (A f I' x t J)|]. intros y _ Q. apply variable_name_inj in Q as [-> _].
        rewrite (proj2 (same_family_iff g g) eq_refl) in F. discriminate.
    + destruct (H2 h g c b [] eq_refl) as [d I].
      destruct (feed_ok g (ls g) b s (fun x => fed g x h []) (proj1 (LS g)) (proj2 (LS g)) OK (A g (ex_intro _ d I))) as (s' & E' & A' & O').
      rewrite E'. cbn [bind]. exists s'. split; [reflexivity|]. intros f [d' J'].
      apply in_app_or in J' as [J'|[J'|[]]]; [|discriminate].
      intros x t J. rewrite fed_app. cbn [fed]. destruct (same_family f g) eqn:F.
      * apply same_family_iff in F as ->. exact (A' x t J).
      * rewrite O'; [exact (A f (ex_intro _ d' J') x t J)|]. intros y _ Q. apply variable_name_inj in Q as [-> _].
        rewrite (proj2 (same_family_iff g g) eq_refl) in F. discriminate.
Qed.
