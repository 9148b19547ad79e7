(** The whole score function. *)
From Coq Require Import Qminmax Qabs Lqa.
From Verif Require Import Base ResultLib MonadLib ListLib RaterModel RaterSpec RaterPadProofs RaterScoreProofs.
Open Scope list_scope.

Definition score_element nu cfg (x : (list trajectory * list Q) * element) : result (list bool * Q) :=
  let '((ts, ls), e) := x in
  element_score nu cfg (combine ts ls) (e_inferences e) (e_probs e) (e_speed e).

Lemma combine_maps {A B C} (f : A -> B) (g : A -> C) l : combine (map f l) (map g l) = map (fun a => (f a, g a)) l.
Proof. induction l as [|a l IH]; [reflexivity|]. cbn. rewrite IH. reflexivity. Qed.

Definition inputs (e : element) : list trajectory * list Q := (e_raters e, e_labels e).

Lemma batch_considered cfg e b : length (e_raters e) = length (e_labels e) ->
  fitted_batch (length_seconds cfg * frequency cfg) (default_count cfg) (inputs e) b ->
  considered cfg e (combine (fst b) (snd b)).
Proof. intros L F t' l. exact (fitted_pairs _ _ _ _ F L t' l). Qed.

Lemma considered_long cfg e raters : considered cfg e raters -> (0 < frequency cfg)%nat ->
  (5 * frequency cfg <= length_seconds cfg * frequency cfg)%nat ->
  forall r, In r raters -> long_enough cfg (fst r).
Proof.
  intros C F L [t' l] I. apply C in I. destruct I as (t & _ & [Lt _]). split; [exact F|]. cbn [fst]. rewrite Lt. exact L.
Qed.

Lemma element_score_inv nu cfg raters e out :
  element_score nu cfg raters (e_inferences e) (e_probs e) (e_speed e) = Ok out ->
  exists rs, mapM (inference_score nu cfg (e_speed e) raters) (e_inferences e) = Ok rs
    /\ out = (map fst rs, weighted_sum (map snd rs) (e_probs e)).
Proof. unfold element_score. intros E. dbind E rs E1. apply Ok_inj in E. subst out. exists rs. split; [exact E1|reflexivity]. Qed.

Lemma mapM_all_ok {A B} (f : A -> result B) l : (forall a, In a l -> exists b, f a = Ok b) -> exists r, mapM f l = Ok r.
Proof.
  induction l as [|a l IH]; intros H; [exists []; reflexivity|]. cbn [mapM].
  destruct (H a (or_introl eq_refl)) as (b & ->). destruct IH as (r & ->); [intros x I; apply H; right; exact I|].
  eexists. reflexivity.
Qed.

Lemma whole_inv nu cfg steps batch r : rater_feedback_score nu cfg steps batch = Ok r ->
  exists processed, process (map e_raters batch) (map e_labels batch)
       (length_seconds cfg * frequency cfg) (default_count cfg) = Ok processed
    /\ processed <> [] /\ default_count cfg <> 0%nat /\ steps = (length_seconds cfg * frequency cfg)%nat
    /\ (5 * frequency cfg <= steps)%nat /\ steps <> 0%nat
    /\ mapM (score_element nu cfg) (combine processed batch) = Ok r.
Proof.
  unfold rater_feedback_score. intros E. dbind E pr E1. exists pr. split; [exact E1|].
  destruct pr as [|b pr]; [discriminate|].
  destruct (Nat.eqb_spec (default_count cfg) 0) as [|D]; [discriminate|].
  destruct (Nat.eqb_spec steps (length_seconds cfg * frequency cfg)) as [S|]; cbn [negb] in E; [|discriminate].
  destruct (Nat.ltb_spec steps (5 * frequency cfg)) as [|G]; [discriminate|].
  destruct (Nat.eqb_spec steps 0) as [|Z]; [discriminate|].
  split; [discriminate|]. split; [exact D|]. split; [exact S|]. split; [exact G|]. split; [exact Z|]. exact E.
Qed.

Lemma elements_ok cfg batch : default_count cfg <> 0%nat -> (length_seconds cfg * frequency cfg <> 0)%nat ->
  ((exists p, process (map e_raters batch) (map e_labels batch)
       (length_seconds cfg * frequency cfg) (default_count cfg) = Ok p)
   <-> Forall (element_ok cfg) batch).
Proof.
  intros D S. rewrite process_succeeds, combine_maps, !map_length. split.
  - intros [_ F]. rewrite Forall_forall in F |- *. intros e I.
    destruct (F (e_raters e, e_labels e)) as (L & K & T); [apply in_map_iff; exists e; split; [reflexivity|exact I]|].
    split; [exact L|]. split.
    + destruct K as [K|K]; [exact K|contradiction].
    + intros t J. destruct (T t J) as [X|X]; [exact X|contradiction].
  - intros F. split; [reflexivity|]. rewrite Forall_forall in F |- *. intros b I. apply in_map_iff in I.
    destruct I as (e & <- & I). destruct (F e I) as (L & K & T). split; [exact L|]. split; [left; exact K|].
    intros t J. left. exact (T t J).
Qed.

Lemma processed_forall cfg batch p : process (map e_raters batch) (map e_labels batch)
       (length_seconds cfg * frequency cfg) (default_count cfg) = Ok p ->
  Forall2 (fun e b => fitted_batch (length_seconds cfg * frequency cfg) (default_count cfg) (inputs e) b) batch p.
Proof.
  intros E. apply process_value in E. rewrite combine_maps in E.
  remember (map _ batch) as bs eqn:Eb. revert batch Eb.
  induction E as [|b b' bs p H _ IH]; intros [|e batch] Eb; try discriminate; [constructor|].
  cbn [map] in Eb. inversion Eb; subst. constructor; [exact H|]. apply IH. reflexivity.
Qed.

Lemma combine_Forall2 {A B} (R : A -> B -> Prop) l l' : Forall2 R l l' ->
  forall b a, In (b, a) (combine l' l) -> In a l /\ R a b.
Proof.
  induction 1 as [|a b l l' H _ IH]; intros b' a' I; [destruct I|]. cbn [combine] in I. destruct I as [I|I].
  - inversion I; subst. split; [left; reflexivity|exact H].
  - destruct (IH _ _ I) as [J K]. split; [right; exact J|exact K].
Qed.
Lemma fitted_nonempty steps count b b' : (count <> 0)%nat ->
  fitted_batch steps count b b' -> combine (fst b') (snd b') <> [].
Proof.
  intros D ([L1 _] & L2 & _). destruct (fst b') as [|t ts]; [cbn in L2; lia|].
  destruct (snd b') as [|l ls]; [cbn in L1; lia|]. discriminate.
Qed.

Lemma whole_succeeds nu cfg steps batch : norm_laws nu -> positive_multipliers cfg -> rectangular steps batch ->
  ((exists r, rater_feedback_score nu cfg steps batch = Ok r) <-> accepted cfg steps batch).
Proof.
  intros N M R. split.
  - intros (r & E). destruct (whole_inv _ _ _ _ _ E) as (p & Ep & Np & D & S & G & Z & _).
    split.
    + intros ->. cbn in Ep. apply Ok_inj in Ep. congruence.
    + split; [exact D|]. split; [exact S|]. split; [exact G|]. split; [exact Z|].
      apply elements_ok; [exact D|congruence|]. exists p. exact Ep.
  - intros (Nb & D & S & G & Z & F). destruct (proj2 (elements_ok cfg batch D ltac:(congruence)) F) as (p & Ep).
    unfold rater_feedback_score. rewrite Ep. cbn [bind]. pose proof (processed_forall _ _ _ Ep) as P.
    destruct p as [|b0 p0]; [inversion P; congruence|]. set (p := b0 :: p0) in *.
    destruct (Nat.eqb_spec (default_count cfg) 0) as [|_]; [contradiction|].
    destruct (Nat.eqb_spec steps (length_seconds cfg * frequency cfg)) as [_|]; cbn [negb]; [|contradiction].
    destruct (Nat.ltb_spec steps (5 * frequency cfg)) as [|_]; [lia|].
    destruct (Nat.eqb_spec steps 0) as [|_]; [contradiction|].
    apply mapM_all_ok. intros [[ts ls] e] I. destruct (combine_Forall2 _ _ _ P _ _ I) as [J Fb].
    assert (Fr : (0 < frequency cfg)%nat) by (destruct (frequency cfg); [lia|lia]).
    pose proof (proj1 (Forall_forall _ _) F e J) as (L & _).
    pose proof (batch_considered cfg e (ts, ls) L Fb) as C. cbn [fst snd] in C.
    pose proof (fitted_nonempty _ _ _ _ D Fb) as Ne. cbn [fst snd] in Ne.
    unfold element_score. destruct (mapM_all_ok (inference_score nu cfg (e_speed e) (combine ts ls)) (e_inferences e)) as (rs & ->).
    + intros i Ii. destruct (inference_total nu cfg (e_speed e) (combine ts ls) i N M Ne) as (w & s & Ws).
      * apply (considered_long cfg e _ C Fr). lia.
      * split; [exact Fr|]. rewrite (R e i J Ii). exact G.
      * exists (w, s). exact Ws.
    + eexists. reflexivity.
Qed.

Lemma whole_value nu cfg steps batch r : norm_laws nu -> positive_multipliers cfg -> rectangular steps batch ->
  rater_feedback_score nu cfg steps batch = Ok r -> Forall2 (result_of nu cfg) batch r.
Proof.
  intros N M R E.
  assert (Acc : accepted cfg steps batch) by (apply (whole_succeeds nu); try assumption; exists r; exact E).
  destruct Acc as (_ & _ & _ & _ & _ & F).
  destruct (whole_inv _ _ _ _ _ E) as (p & Ep & Np & D & S & G & Z & Em).
  pose proof (processed_forall _ _ _ Ep) as P. clear E Ep Np. apply mapM_inv in Em.
  assert (Fr : (0 < frequency cfg)%nat) by (destruct (frequency cfg); [lia|lia]).
  revert r Em. induction P as [|e b batch p H P IH]; intros r Em; cbn [combine] in Em.
  - inversion Em; subst. constructor.
  - inversion Em as [|x out y r' Ho Em']; subst x y r. inversion F as [|? ? Fe F']; subst. constructor.
    + destruct b as [ts ls]. cbn [score_element] in Ho. destruct (element_score_inv _ _ _ _ _ Ho) as (rs & Er & ->).
      pose proof (batch_considered cfg e (ts, ls) (proj1 Fe) H) as C. cbn [fst snd] in C.
      exists (combine ts ls), (map snd rs). split; [exact C|]. cbn [fst snd]. rewrite !map_length.
      pose proof (mapM_length _ _ _ Er) as Lr. split; [exact Lr|]. split; [exact Lr|]. split; [|reflexivity].
      intros k i w s Hi Hw Hs. apply mapM_inv in Er. destruct (Forall2_nth _ _ _ Er k i Hi) as ([w' s'] & Hr & Sc).
      rewrite nth_error_map, Hr in Hw, Hs. cbn in Hw, Hs. inversion Hw; inversion Hs; subst w' s'.
      apply score_exact; try assumption.
      * apply (considered_long cfg e _ C Fr). lia.
      * split; [exact Fr|]. rewrite (R e i (or_introl eq_refl) (nth_error_In _ _ Hi)). exact G.
    + apply IH; [|exact F'|exact Em']. intros e' t I. apply R. right. exact I.
Qed.

(** Padding does not change the results. *)
Lemma element_same nu cfg e raters raters' out :
  element_score nu cfg raters (e_inferences e) (e_probs e) (e_speed e) = Ok out ->
  (forall r, In r raters <-> In r raters') ->
  exists out', element_score nu cfg raters' (e_inferences e) (e_probs e) (e_speed e) = Ok out'
    /\ fst out = fst out' /\ (snd out == snd out')%Q.
Proof.
  intros E H. destruct (element_score_inv _ _ _ _ _ E) as (rs & Er & ->). unfold element_score.
  assert (X : exists rs', mapM (inference_score nu cfg (e_speed e) raters') (e_inferences e) = Ok rs'
     /\ map fst rs = map fst rs' /\ Forall2 Qeq (map snd rs) (map snd rs')).
  { apply mapM_inv in Er. clear E. induction Er as [|i o is rs Hi _ (rs' & E' & A & B)].
    - exists []. split; [reflexivity|]. split; [reflexivity|constructor].
    - destruct o as [w s]. destruct (same_raters _ _ _ _ _ _ _ _ Hi H) as (s' & Hs & Q).
      exists ((w, s') :: rs'). cbn [mapM]. rewrite Hs, E'. split; [reflexivity|]. cbn [map fst snd].
      split; [f_equal; exact A|]. constructor; [symmetry; exact Q|exact B]. }
  destruct X as (rs' & -> & A & B). cbn [bind]. eexists. split; [reflexivity|]. cbn [fst snd].
  split; [exact A|]. apply weighted_wd. exact B.
Qed.

Lemma considered_unique cfg e a b : considered cfg e a -> considered cfg e b -> forall r, In r a <-> In r b.
Proof. intros A B [t l]. rewrite (A t l), (B t l). reflexivity. Qed.
Lemma considered_count cfg c c' e a : considered (with_count cfg c) e a ->
  (length (e_raters e) <= c)%nat -> (length (e_raters e) <= c')%nat -> considered (with_count cfg c') e a.
Proof.
  intros C H H' t l. rewrite (C t l). cbn [default_count with_count length_seconds frequency].
  rewrite !firstn_all2; [reflexivity| |]; rewrite combine_length; lia.
Qed.

Lemma count_irrelevant nu cfg c c' steps batch r :
  (c' <> 0)%nat -> Forall (fun e => (length (e_raters e) <= c)%nat /\ (length (e_raters e) <= c')%nat) batch ->
  rater_feedback_score nu (with_count cfg c) steps batch = Ok r ->
  exists r', rater_feedback_score nu (with_count cfg c') steps batch = Ok r' /\ same_results r r'.
Proof.
  intros C' Lc E. destruct (whole_inv _ _ _ _ _ E) as (p & Ep & Np & D & S & G & Z & Em).
  cbn [with_count length_seconds frequency default_count] in *.
  assert (F : Forall (element_ok (with_count cfg c)) batch).
  { apply elements_ok; cbn [with_count length_seconds frequency default_count]; [exact D|lia|]. exists p. exact Ep. }
  assert (F' : Forall (element_ok (with_count cfg c')) batch).
  { rewrite Forall_forall in F, Lc |- *. intros e I. destruct (F e I) as (L & K & T). destruct (Lc e I) as [L1 L2].
    split; [exact L|]. split; [exact K|]. cbn [with_count default_count] in *.
    rewrite firstn_all2 in T |- * by lia. exact T. }
  destruct (proj2 (elements_ok (with_count cfg c') batch C' ltac:(cbn [with_count length_seconds frequency]; lia)) F') as (p' & Ep').
  pose proof (processed_forall (with_count cfg c) _ _ Ep) as P.
  pose proof (processed_forall (with_count cfg c') _ _ Ep') as P'.
  unfold rater_feedback_score. cbn [with_count length_seconds frequency default_count].
  cbn [with_count length_seconds frequency default_count] in Ep'. rewrite Ep'. cbn [bind].
  assert (Np' : p' <> []).
  { intros ->. inversion P'; subst. inversion P; subst. contradiction. }
  destruct p' as [|b0 p0]; [contradiction|]. set (q := b0 :: p0) in *.
  destruct (Nat.eqb_spec c' 0) as [|_]; [contradiction|].
  destruct (Nat.eqb_spec steps (length_seconds cfg * frequency cfg)) as [_|]; cbn [negb]; [|contradiction].
  destruct (Nat.ltb_spec steps (5 * frequency cfg)) as [|_]; [lia|].
  destruct (Nat.eqb_spec steps 0) as [|_]; [contradiction|].
  change (fun x : list trajectory * list Q * element =>
      let '(ts, ls, e) := x in element_score nu (with_count cfg c') (combine ts ls) (e_inferences e) (e_probs e) (e_speed e))
    with (score_element nu (with_count cfg c')).
  clear Ep Ep' Np Np' E. clearbody q. clear b0 p0. apply mapM_inv in Em. revert q P' r Em.
  induction P as [|e b batch p H P IH]; intros q P' r Em; inversion P' as [|? b' ? q' H' P'']; subst; cbn [combine] in Em |- *.
  - inversion Em; subst. exists []. split; [reflexivity|constructor].
  - inversion Em as [|x out y r' Ho Em']; subst x y r. inversion Lc as [|? ? [Le Le'] Lc']; subst.
    inversion F as [|? ? Fe Ft]; subst. inversion F' as [|? ? Fe' Ft']; subst.
    destruct (IH Lc' Ft Ft' q' P'' r' Em') as (r'' & Er & Sr).
    destruct b as [ts ls], b' as [ts' ls']. cbn [score_element] in Ho.
    pose proof (batch_considered (with_count cfg c) e (ts, ls) (proj1 Fe) H) as Ca.
    pose proof (batch_considered (with_count cfg c') e (ts', ls') (proj1 Fe) H') as Cb. cbn [fst snd] in Ca, Cb.
    apply (considered_count cfg c c') in Ca; [|exact Le|exact Le'].
    change (with_count cfg c) with (with_count cfg c) in Ho.
    assert (Ho' : element_score nu (with_count cfg c') (combine ts ls) (e_inferences e) (e_probs e) (e_speed e) = Ok out) by exact Ho.
    destruct (element_same nu (with_count cfg c') e _ (combine ts' ls') out Ho' (considered_unique _ _ _ _ Ca Cb)) as (out' & Eo & S1 & S2).
    exists (out' :: r''). cbn [mapM score_element]. rewrite Eo, Er. split; [reflexivity|].
    constructor; [split; assumption|exact Sr].
Qed.

(** The total, for a distribution. *)
Open Scope Q_scope.
Lemma total_bounds nu cfg speed raters inferences probs out hi : power_laws nu cfg -> 0 <= minimum_outside cfg ->
  element_score nu cfg raters inferences probs speed = Ok out ->
  length probs = length inferences -> (forall p, In p probs -> 0 <= p) -> fold_left Qplus probs 0 == 1 ->
  (forall r, In r raters -> 0 <= snd r <= hi) -> minimum_outside cfg <= hi ->
  0 <= snd out <= hi
  /\ (Forall (fun w => w = false) (fst out) -> minimum_outside cfg <= snd out).
Proof.
  intros P M E Lp Pp Sp H Hm. unfold element_score in E. dbind E rs Er. apply Ok_inj in E. subst out. cbn [fst snd].
  pose proof (mapM_length _ _ _ Er) as Lr. apply mapM_inv in Er.
  assert (K : forall w s, In (w, s) rs -> (0 <= s <= hi) /\ (w = false -> minimum_outside cfg <= s)).
  { intros w s I. apply In_nth_error in I. destruct I as (k & I).
    destruct (Forall2_nth_r _ _ _ Er k _ I) as (i & _ & Ei).
    destruct (score_bounds nu cfg speed raters i w s Ei P (fun r J => proj1 (H r J)) hi (fun r J => proj2 (H r J))) as [B1 B2].
    destruct w; [split; [exact (B1 eq_refl)|discriminate]|]. destruct (B2 eq_refl) as [X Y].
    rewrite Q.max_r in Y by exact Hm. split; [split; [lra|exact Y]|intros _; exact X]. }
  split.
  - destruct (weighted_bounds 0 hi (map snd rs) probs) as [A B].
    + rewrite map_length. lia.
    + intros s I. apply in_map_iff in I. destruct I as ([w s'] & <- & I). exact (proj1 (K w s' I)).
    + exact Pp.
    + rewrite Sp in A, B. split; lra.
  - intros F. destruct (weighted_bounds (minimum_outside cfg) hi (map snd rs) probs) as [A _].
    + rewrite map_length. lia.
    + intros s I. apply in_map_iff in I. destruct I as ([w s'] & <- & I). cbn [snd].
      destruct (K w s' I) as [[_ X] Y]. split; [|exact X]. apply Y.
      apply (proj1 (Forall_forall _ _) F). apply in_map_iff. exists (w, s'). split; [reflexivity|exact I].
    + exact Pp.
    + rewrite Sp in A. lra.
Qed.
