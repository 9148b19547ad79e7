(** Proofs about comparison and scaling of exact floating point numbers. *)
From Coq Require Import ZArith QArith Qabs Qpower Lqa Lia Bool.
From Verif Require Import Base ExactFloatModel ExactFloatSpec ExactFloatLib ExactFloatProofs ExactFloatOpsProofs.
Local Open Scope Z_scope.

Theorem sub_special a b : canonical a -> canonical b ->
  ((is_nan a = true \/ is_nan b = true) -> is_nan (sub a b) = true) /\
  (is_inf a = true -> is_finite b = true -> sub a b = a) /\
  (is_finite a = true -> is_inf b = true -> sub a b = neg b) /\
  (is_inf a = true -> is_inf b = true -> sign a <> sign b -> sub a b = a) /\
  (is_inf a = true -> is_inf b = true -> sign a = sign b -> sub a b = nan).
Proof.
  intros Ca Cb. destruct (add_special a (neg b) Ca (neg_canonical b Cb)) as (N & I1 & I2 & I3 & I4).
  assert (S : is_nan b = false -> sub a b = add a (neg b)) by apply sub_add.
  assert (IN : is_inf b = true -> is_nan b = false) by (intros H; apply (inf_flags b H)).
  split; [|split; [|split; [|split]]].
  - intros H. destruct (is_nan b) eqn:Nb; [|rewrite S by reflexivity; apply N; destruct H as [H|H]; [left; exact H|discriminate]].
    unfold sub, signed_sum. destruct (nan_flags b Nb) as (-> & _). cbn [negb]. rewrite orb_true_r, Nb. destruct (is_nan a) eqn:Na; assumption.
  - intros I F. rewrite S by (apply finite_not_nan, F). apply I1; assumption.
  - intros F I. rewrite S by (apply IN, I). apply I2; assumption.
  - intros Ia Ib E. rewrite S by (apply IN, Ib). apply I3; [exact Ia|exact Ib|]. change (sign (neg b)) with (- sign b).
    clear -E Ca Cb. apply canonical_sign in Ca, Cb. lia.
  - intros Ia Ib E. rewrite S by (apply IN, Ib). apply I4; [exact Ia|exact Ib|]. change (sign (neg b)) with (- sign b).
    clear -E Ca Cb. apply canonical_sign in Ca, Cb. lia.
Qed.

(** ** Equality *)
Lemma value_not_normal a : is_normal a = false -> value a = 0%Q.
Proof. intros H. unfold value. rewrite H. reflexivity. Qed.
Theorem eqb_spec a b : canonical a -> canonical b -> eqb a b = true <-> same_number a b.
Proof.
  intros Ca Cb. unfold same_number. split.
  - unfold eqb. destruct (is_nan a) eqn:Na; [discriminate|]. destruct (is_nan b) eqn:Nb; [discriminate|]. cbn [orb].
    destruct (Z.eqb_spec (bn_exp a) (bn_exp b)) as [E|E]; [|discriminate]. cbn [negb].
    destruct (is_zero a) eqn:Za; [destruct (is_zero b) eqn:Zb|].
    + cbn [andb]. intros _. right. rewrite (zero_kind a Ca Za), (zero_kind b Cb Zb), !value_zero.
      destruct (flags_zero (sign a)) as (_ & _ & _ & _ & ->). destruct (flags_zero (sign b)) as (_ & _ & _ & _ & ->). repeat split.
    + exfalso. unfold is_zero in *. congruence.
    + cbn [andb]. intros H. apply andb_true_iff in H. destruct H as [S B]. apply Z.eqb_eq in S, B.
      assert (a = b) by (destruct a, b; cbn in *; congruence). subst b.
      destruct (canonical_kind a Ca) as [N|[Z|[I|[N _]]]].
      * right. destruct (normal_flags a N) as (_ & _ & _ & F). rewrite F. repeat split.
      * exfalso. rewrite Z in Za. destruct (flags_zero (sign a)) as (_ & G & _). congruence.
      * left. split; [|reflexivity]. rewrite I. apply flags_inf.
      * congruence.
  - intros [[I E]|(Fa & Fb & V)].
    + subst b. unfold eqb. destruct (inf_flags a I) as (_ & -> & -> & _). cbn [orb andb]. rewrite !Z.eqb_refl. reflexivity.
    + unfold eqb. rewrite (finite_not_nan a Fa), (finite_not_nan b Fb). cbn [orb].
      destruct (finite_kind a Ca Fa) as [Na|Za], (finite_kind b Cb Fb) as [Nb|Zb].
      * rewrite (canonical_unique a b Ca Cb Na Nb V). rewrite !Z.eqb_refl. cbn [negb]. destruct (is_zero b && is_zero b); reflexivity.
      * exfalso. rewrite Zb, value_zero in V. apply (normal_nonzero a Ca Na V).
      * exfalso. rewrite Za, value_zero in V. apply (normal_nonzero b Cb Nb). rewrite <- V. reflexivity.
      * rewrite Za, Zb. destruct (flags_zero (sign a)) as (_ & -> & _). destruct (flags_zero (sign b)) as (_ & -> & _).
        cbn [bn_exp signed_zero]. rewrite Z.eqb_refl. reflexivity.
Qed.

(** ** Order *)
Lemma unsigned_less_normal a b : canonical a -> canonical b -> is_normal a = true -> is_normal b = true ->
  unsigned_less a b = true <-> (inject_Z (bn a) * pow2 (bn_exp a) < inject_Z (bn b) * pow2 (bn_exp b))%Q.
Proof.
  intros Ca Cb Na Nb. destruct (canonical_normal a Ca Na) as (Pa & _). destruct (canonical_normal b Cb Nb) as (Pb & _).
  destruct (normal_flags a Na) as (Za & Ia & _). destruct (normal_flags b Nb) as (Zb & Ib & _).
  unfold unsigned_less. rewrite Za, Ia, Zb, Ib. cbn [orb]. cbv zeta.
  destruct (mag (bn a) (bn_exp a) Pa) as [La Ua]. destruct (mag (bn b) (bn_exp b) Pb) as [Lb Ub].
  fold (exp a) in La, Ua. fold (exp b) in Lb, Ub.
  destruct (Z.eqb_spec (exp a - exp b) 0) as [E|E]; cbn [negb].
  - destruct (Z.leb_spec (bn_exp b) (bn_exp a)) as [L|L]; unfold scale_and_compare.
    + rewrite Z.shiftl_mul_pow2 by lia. rewrite (shift_val (bn a) (bn_exp a) (bn_exp b)) by exact L. rewrite val_lt.
      unfold Z.lt. destruct (bn a * 2 ^ (bn_exp a - bn_exp b) ?= bn b); split; congruence.
    + rewrite Z.shiftl_mul_pow2 by lia. rewrite (shift_val (bn b) (bn_exp b) (bn_exp a)) by lia. rewrite val_lt.
      rewrite <- Z.gt_lt_iff. unfold Z.gt. destruct (bn b * 2 ^ (bn_exp b - bn_exp a) ?= bn a); split; congruence.
  - destruct (Z.ltb_spec (exp a - exp b) 0) as [L|L].
    + split; [intros _|reflexivity]. eapply Qlt_le_trans; [exact Ua|]. eapply Qle_trans; [|exact Lb]. apply pow2_le. lia.
    + split; [discriminate|]. intros C. exfalso. apply (Qlt_irrefl (inject_Z (bn a) * pow2 (bn_exp a))).
      eapply Qlt_trans; [exact C|]. eapply Qlt_le_trans; [exact Ub|]. eapply Qle_trans; [|exact La]. apply pow2_le. lia.
Qed.
Lemma normal_value_sign a : canonical a -> is_normal a = true ->
  (sign a = 1 /\ (0 < value a)%Q /\ (value a == inject_Z (bn a) * pow2 (bn_exp a))%Q) \/
  (sign a = -1 /\ (value a < 0)%Q /\ (value a == - (inject_Z (bn a) * pow2 (bn_exp a)))%Q).
Proof.
  intros C N. destruct (canonical_normal a C N) as (P & _). rewrite value_normal by exact N. destruct (canonical_sign a C) as [S|S]; rewrite S.
  - left. split; [reflexivity|]. split; [apply val_pos; lia|]. rewrite Z.mul_1_l. reflexivity.
  - right. split; [reflexivity|]. split; [apply val_neg; lia|]. rewrite inject_Z_mult. change (inject_Z (-1)) with (-1 # 1)%Q. ring.
Qed.
Lemma inf_neq s s' : s <> s' -> infinity s <> infinity s'.
Proof. intros H E. apply H. inversion E. reflexivity. Qed.
Lemma normal_neq_inf a s : is_normal a = true -> a <> infinity s.
Proof. intros N E. rewrite E in N. destruct (flags_inf s) as (G & _). congruence. Qed.
Lemma zero_neq_inf z s : signed_zero z <> infinity s.
Proof. intros E. apply (f_equal bn_exp) in E. cbn [bn_exp signed_zero infinity] in E. revert E. kf. lia. Qed.

(** The kinds a comparable value can have. *)
Lemma comparable_kind a : canonical a -> is_nan a = false ->
  is_normal a = true \/ (exists s, (s = 1 \/ s = -1) /\ a = signed_zero s) \/ (exists s, (s = 1 \/ s = -1) /\ a = infinity s).
Proof.
  intros C N. destruct (canonical_kind a C) as [H|[H|[H|[H _]]]]; [left; exact H|right; left|right; right|congruence];
    exists (sign a); (split; [apply canonical_sign, C|exact H]).
Qed.
Theorem ltb_spec a b : canonical a -> canonical b -> ltb a b = true <-> below a b.
Proof.
  intros Ca Cb. unfold ltb, below. destruct (is_nan a) eqn:NA; [split; [discriminate|intros (H & _); discriminate]|].
  destruct (is_nan b) eqn:NB; [split; [discriminate|intros (_ & H & _); discriminate]|]. cbn [orb].
  destruct (comparable_kind a Ca NA) as [Na|[(sa & Sa & ->)|(sa & Sa & ->)]], (comparable_kind b Cb NB) as [Nb|[(sb & Sb & ->)|(sb & Sb & ->)]].
  - (* two numbers *)
    destruct (normal_flags a Na) as (Za & _ & _ & Fa). destruct (normal_flags b Nb) as (Zb & _ & _ & Fb). rewrite Za, Fa, Fb. cbn [andb].
    assert (W : forall c : bool, (c = true <-> (value a < value b)%Q) -> c = true <-> false = false /\ false = false /\ (a = infinity (-1) /\ b <> infinity (-1) \/ b = infinity 1 /\ a <> infinity 1 \/ true = true /\ true = true /\ (value a < value b)%Q)).
    { intros c Hc. rewrite Hc. split; [intros H; repeat split; right; right; repeat split; exact H|].
      intros (_ & _ & [[H _]|[[H _]|(_ & _ & H)]]); [exfalso; apply (normal_neq_inf _ _ Na H)|exfalso; apply (normal_neq_inf _ _ Nb H)|exact H]. }
    apply W. clear W.
    destruct (normal_value_sign a Ca Na) as [(Sa & Va & Ea)|(Sa & Va & Ea)], (normal_value_sign b Cb Nb) as [(Sb & Vb & Eb)|(Sb & Vb & Eb)]; rewrite Sa, Sb; cbn.
    + rewrite (unsigned_less_normal a b) by assumption. rewrite Ea, Eb. reflexivity.
    + split; [discriminate|lra].
    + split; [lra|reflexivity].
    + rewrite (unsigned_less_normal b a) by assumption. rewrite Ea, Eb. split; lra.
  - (* number, zero *)
    destruct (normal_flags a Na) as (Za & Ia & _ & Fa). destruct (flags_zero sb) as (_ & Zb & Ib & _ & Fb). rewrite Za, Fa, Fb. cbn [andb].
    assert (V : value (signed_zero sb) = 0%Q) by apply value_zero. rewrite V. unfold unsigned_less. rewrite Za, Ia, Zb, Ib. cbn [orb sign signed_zero].
    assert (W : forall c : bool, (c = true <-> (value a < 0)%Q) -> c = true <-> false = false /\ false = false /\ (a = infinity (-1) /\ signed_zero sb <> infinity (-1) \/ signed_zero sb = infinity 1 /\ a <> infinity 1 \/ true = true /\ true = true /\ (value a < 0)%Q)).
    { intros c Hc. rewrite Hc. split; [intros H; repeat split; right; right; repeat split; exact H|].
      intros (_ & _ & [[H _]|[[H _]|(_ & _ & H)]]); [exfalso; apply (normal_neq_inf _ _ Na H)|exfalso; apply (zero_neq_inf _ _ H)|exact H]. }
    apply W. destruct (normal_value_sign a Ca Na) as [(Sa & Va & _)|(Sa & Va & _)]; rewrite Sa; destruct Sb as [-> | ->]; cbn; split; try discriminate; try reflexivity; lra.
  - (* number, infinity *)
    destruct (normal_flags a Na) as (Za & Ia & _ & Fa). destruct (flags_inf sb) as (_ & Zb & Ib & _ & Fb). rewrite Za, Fa, Fb. cbn [andb].
    unfold unsigned_less. rewrite Za, Ia, Zb, Ib. cbn [orb sign infinity].
    assert (W : forall c : bool, (c = true <-> sb = 1) -> c = true <-> false = false /\ false = false /\ (a = infinity (-1) /\ infinity sb <> infinity (-1) \/ infinity sb = infinity 1 /\ a <> infinity 1 \/ true = true /\ false = true /\ (value a < value (infinity sb))%Q)).
    { intros c Hc. rewrite Hc. split.
      - intros ->. repeat split. right. left. split; [reflexivity|apply normal_neq_inf, Na].
      - intros (_ & _ & [[H _]|[[H _]|(_ & H & _)]]); [exfalso; apply (normal_neq_inf _ _ Na H)|inversion H; reflexivity|discriminate]. }
    apply W. destruct (canonical_sign a Ca) as [-> | ->]; destruct Sb as [-> | ->]; cbn; split; try discriminate; try reflexivity.
  - (* zero, number *)
    destruct (normal_flags b Nb) as (Zb & Ib & _ & Fb). destruct (flags_zero sa) as (_ & Za & Ia & _ & Fa). rewrite Zb, Fa, Fb, andb_false_r.
    assert (V : value (signed_zero sa) = 0%Q) by apply value_zero. rewrite V. unfold unsigned_less. rewrite Za, Ia, Zb, Ib. cbn [orb sign signed_zero].
    assert (W : forall c : bool, (c = true <-> (0 < value b)%Q) -> c = true <-> false = false /\ false = false /\ (signed_zero sa = infinity (-1) /\ b <> infinity (-1) \/ b = infinity 1 /\ signed_zero sa <> infinity 1 \/ true = true /\ true = true /\ (0 < value b)%Q)).
    { intros c Hc. rewrite Hc. split; [intros H; repeat split; right; right; repeat split; exact H|].
      intros (_ & _ & [[H _]|[[H _]|(_ & _ & H)]]); [exfalso; apply (zero_neq_inf _ _ H)|exfalso; apply (normal_neq_inf _ _ Nb H)|exact H]. }
    apply W. destruct (normal_value_sign b Cb Nb) as [(Sb & Vb & _)|(Sb & Vb & _)]; rewrite Sb; destruct Sa as [-> | ->]; cbn; split; try discriminate; try reflexivity; try lra; intros _; exact Vb.
  - (* zero, zero *)
    destruct (flags_zero sa) as (_ & Za & _ & _ & Fa). destruct (flags_zero sb) as (_ & Zb & _ & _ & Fb). rewrite Za, Zb, Fa, Fb. cbn [andb]. rewrite !value_zero.
    split; [discriminate|]. intros (_ & _ & [[H _]|[[H _]|(_ & _ & H)]]); exfalso; [apply (zero_neq_inf _ _ H)|apply (zero_neq_inf _ _ H)|apply (Qlt_irrefl 0 H)].
  - (* zero, infinity *)
    destruct (flags_zero sa) as (_ & Za & Ia & _ & Fa). destruct (flags_inf sb) as (_ & Zb & Ib & _ & Fb). rewrite Za, Zb, Fa, Fb. cbn [andb].
    unfold unsigned_less. rewrite Za, Ia, Zb, Ib. cbn [orb sign infinity signed_zero].
    assert (W : forall c : bool, (c = true <-> sb = 1) -> c = true <-> false = false /\ false = false /\ (signed_zero sa = infinity (-1) /\ infinity sb <> infinity (-1) \/ infinity sb = infinity 1 /\ signed_zero sa <> infinity 1 \/ true = true /\ false = true /\ (value (signed_zero sa) < value (infinity sb))%Q)).
    { intros c Hc. rewrite Hc. split.
      - intros ->. repeat split. right. left. split; [reflexivity|apply zero_neq_inf].
      - intros (_ & _ & [[H _]|[[H _]|(_ & H & _)]]); [exfalso; apply (zero_neq_inf _ _ H)|inversion H; reflexivity|discriminate]. }
    apply W. destruct Sa as [-> | ->]; destruct Sb as [-> | ->]; cbn; split; try discriminate; try reflexivity.
  - (* infinity, number *)
    destruct (normal_flags b Nb) as (Zb & Ib & _ & Fb). destruct (flags_inf sa) as (_ & Za & Ia & _ & Fa). rewrite Za, Fa, Fb. cbn [andb].
    unfold unsigned_less. rewrite Za, Ia, Zb, Ib. cbn [orb sign infinity].
    assert (W : forall c : bool, (c = true <-> sa = -1) -> c = true <-> false = false /\ false = false /\ (infinity sa = infinity (-1) /\ b <> infinity (-1) \/ b = infinity 1 /\ infinity sa <> infinity 1 \/ false = true /\ true = true /\ (value (infinity sa) < value b)%Q)).
    { intros c Hc. rewrite Hc. split.
      - intros ->. repeat split. left. split; [reflexivity|apply normal_neq_inf, Nb].
      - intros (_ & _ & [[H _]|[[H _]|(H & _)]]); [inversion H; reflexivity|exfalso; apply (normal_neq_inf _ _ Nb H)|discriminate]. }
    apply W. destruct (canonical_sign b Cb) as [-> | ->]; destruct Sa as [-> | ->]; cbn; split; try discriminate; try reflexivity.
  - (* infinity, zero *)
    destruct (flags_zero sb) as (_ & Zb & Ib & _ & Fb). destruct (flags_inf sa) as (_ & Za & Ia & _ & Fa). rewrite Za, Fa, Fb. cbn [andb].
    unfold unsigned_less. rewrite Za, Ia, Zb, Ib. cbn [orb sign infinity signed_zero].
    assert (W : forall c : bool, (c = true <-> sa = -1) -> c = true <-> false = false /\ false = false /\ (infinity sa = infinity (-1) /\ signed_zero sb <> infinity (-1) \/ signed_zero sb = infinity 1 /\ infinity sa <> infinity 1 \/ false = true /\ true = true /\ (value (infinity sa) < value (signed_zero sb))%Q)).
    { intros c Hc. rewrite Hc. split.
      - intros ->. repeat split. left. split; [reflexivity|apply zero_neq_inf].
      - intros (_ & _ & [[H _]|[[H _]|(H & _)]]); [inversion H; reflexivity|exfalso; apply (zero_neq_inf _ _ H)|discriminate]. }
    apply W. destruct Sb as [-> | ->]; destruct Sa as [-> | ->]; cbn; split; try discriminate; try reflexivity.
  - (* infinities *)
    destruct (flags_inf sb) as (_ & Zb & Ib & _ & Fb). destruct (flags_inf sa) as (_ & Za & Ia & _ & Fa). rewrite Za, Fa, Fb. cbn [andb].
    unfold unsigned_less. rewrite Za, Ia, Zb, Ib. cbn [orb sign infinity].
    destruct Sa as [-> | ->], Sb as [-> | ->]; cbn; split; try discriminate; try reflexivity.
    + intros (_ & _ & [[H _]|[[_ H]|(H & _)]]); [inversion H|exfalso; apply H; reflexivity|discriminate].
    + intros (_ & _ & [[H _]|[[H _]|(H & _)]]); [inversion H|inversion H|discriminate].
    + intros _. repeat split. left. split; [reflexivity|]. intros H. inversion H.
    + intros (_ & _ & [[_ H]|[[H _]|(H & _)]]); [exfalso; apply H; reflexivity|inversion H|discriminate].
Qed.

Lemma inf_not_finite s : is_finite (infinity s) = false. Proof. apply flags_inf. Qed.
Lemma below_irrefl a : ~ below a a.
Proof.
  intros (_ & _ & [[H1 H2]|[[H1 H2]|(_ & _ & H)]]); [exact (H2 H1)|exact (H2 H1)|exact (Qlt_irrefl _ H)].
Qed.
Lemma infs_neq : infinity 1 <> infinity (-1). Proof. apply inf_neq. discriminate. Qed.
Lemma below_asym a b : below a b -> ~ below b a.
Proof.
  intros (_ & _ & H) (_ & _ & H').
  assert (FI : forall x s, is_finite x = true -> x <> infinity s) by (intros x s F E; rewrite E, inf_not_finite in F; discriminate).
  pose proof infs_neq as I.
  destruct H as [[H1 H2]|[[H1 H2]|(F1 & F2 & H)]], H' as [[G1 G2]|[[G1 G2]|(F3 & F4 & G)]]; try congruence;
    try (exfalso; solve [eapply (FI a); eassumption | eapply (FI b); eassumption]).
  apply (Qlt_irrefl (value a)). eapply Qlt_trans; eassumption.
Qed.
Lemma comparable_ext a : canonical a -> is_nan a = false -> is_finite a = true \/ a = infinity 1 \/ a = infinity (-1).
Proof.
  intros C N. destruct (comparable_kind a C N) as [H|[(s & Hs & ->)|(s & [-> | ->] & ->)]].
  - left. apply normal_flags, H.
  - left. apply flags_zero.
  - right. left. reflexivity.
  - right. right. reflexivity.
Qed.
Lemma below_total a b : canonical a -> canonical b -> is_nan a = false -> is_nan b = false -> below a b \/ same_number a b \/ below b a.
Proof.
  intros Ca Cb Na Nb. unfold below, same_number. rewrite Na, Nb.
  assert (FI : forall x s, is_finite x = true -> x <> infinity s) by (intros x s F E; rewrite E, inf_not_finite in F; discriminate).
  destruct (comparable_ext a Ca Na) as [Fa|[Ea|Ea]], (comparable_ext b Cb Nb) as [Fb|[Eb|Eb]].
  - destruct (Q_dec (value a) (value b)) as [[L|L]|E].
    + left. auto 10.
    + right. right. auto 10.
    + right. left. auto.
  - left. repeat split. right. left. split; [exact Eb|apply FI, Fa].
  - right. right. repeat split. left. split; [exact Eb|apply FI, Fa].
  - right. right. repeat split. right. left. split; [exact Ea|apply FI, Fb].
  - right. left. left. split; [rewrite Ea; apply flags_inf|congruence].
  - right. right. repeat split. left. split; [exact Eb|rewrite Ea; apply infs_neq].
  - left. repeat split. left. split; [exact Ea|apply FI, Fb].
  - left. repeat split. left. split; [exact Ea|rewrite Eb; apply infs_neq].
  - right. left. left. split; [rewrite Ea; apply flags_inf|congruence].
Qed.
Lemma same_not_below a b : same_number a b -> ~ below b a.
Proof.
  intros [[I E]|(Fa & Fb & V)].
  - subst b. apply below_irrefl.
  - intros (_ & _ & [[E _]|[[E _]|(_ & _ & L)]]).
    + rewrite E, inf_not_finite in Fb. discriminate.
    + rewrite E, inf_not_finite in Fa. discriminate.
    + rewrite V in L. apply (Qlt_irrefl _ L).
Qed.
Lemma same_not_nan a b : same_number a b -> is_nan a = false /\ is_nan b = false.
Proof.
  intros [[I E]|(Fa & Fb & V)].
  - subst b. destruct (inf_flags a I) as (_ & _ & N & _). auto.
  - split; apply finite_not_nan; assumption.
Qed.
Theorem leb_spec a b : canonical a -> canonical b -> leb a b = true <-> below a b \/ same_number a b.
Proof.
  intros Ca Cb. unfold leb. destruct (is_nan a) eqn:Na.
  { split; [discriminate|]. intros [(H & _)|H]; [congruence|]. apply same_not_nan in H. destruct H. congruence. }
  destruct (is_nan b) eqn:Nb.
  { split; [discriminate|]. intros [(_ & H & _)|H]; [congruence|]. apply same_not_nan in H. destruct H. congruence. }
  cbn [orb]. rewrite negb_true_iff. split.
  - intros H. destruct (below_total a b Ca Cb Na Nb) as [L|[S|G]]; [left; exact L|right; exact S|]. apply ltb_spec in G; [congruence|assumption|assumption].
  - intros H. destruct (ltb b a) eqn:L; [|reflexivity]. exfalso. apply ltb_spec in L; [|assumption|assumption].
    destruct H as [H|H]; [apply (below_asym _ _ H L)|apply (same_not_below _ _ H L)].
Qed.

(** ** Maximum, minimum, positive difference *)
Theorem fmax_spec a b : canonical a -> canonical b ->
  (is_nan a = true -> fmax a b = b) /\ (is_nan b = true -> is_nan a = false -> fmax a b = a) /\
  (is_nan a = false -> is_nan b = false ->
     (fmax a b = a \/ fmax a b = b) /\ ~ below (fmax a b) a /\ ~ below (fmax a b) b /\
     (is_zero a = true -> is_zero b = true -> sign (fmax a b) = Z.max (sign a) (sign b))).
Proof.
  intros Ca Cb. unfold fmax. split; [intros ->; reflexivity|]. split; [intros -> ->; reflexivity|]. intros Na Nb. rewrite Na, Nb.
  assert (LT : forall x y, canonical x -> canonical y -> ltb x y = false -> ~ below x y) by (intros x y Cx Cy H B; apply ltb_spec in B; [congruence|assumption|assumption]).
  destruct (Z.eqb_spec (sign a) (sign b)) as [E|E]; cbn [negb].
  - destruct (ltb a b) eqn:L.
    + split; [right; reflexivity|]. split; [apply below_asym, ltb_spec; assumption|]. split; [apply below_irrefl|]. intros _ _. lia.
    + split; [left; reflexivity|]. split; [apply below_irrefl|]. split; [apply LT; assumption|]. intros _ _. lia.
  - destruct (Z.ltb_spec (sign a) (sign b)) as [L|L].
    + split; [right; reflexivity|]. split; [|split; [apply below_irrefl|intros _ _; lia]]. apply LT; [assumption|assumption|].
      unfold ltb. rewrite Na, Nb. cbn [orb]. destruct (is_zero b && is_zero a); [reflexivity|].
      rewrite (proj2 (Z.eqb_neq (sign b) (sign a))) by congruence. cbn [negb]. apply Z.ltb_ge. lia.
    + split; [left; reflexivity|]. split; [apply below_irrefl|]. split; [|intros _ _; lia]. apply LT; [assumption|assumption|].
      unfold ltb. rewrite Na, Nb. cbn [orb]. destruct (is_zero a && is_zero b); [reflexivity|].
      rewrite (proj2 (Z.eqb_neq (sign a) (sign b))) by congruence. cbn [negb]. apply Z.ltb_ge. lia.
Qed.
Theorem fmin_spec a b : canonical a -> canonical b ->
  (is_nan a = true -> fmin a b = b) /\ (is_nan b = true -> is_nan a = false -> fmin a b = a) /\
  (is_nan a = false -> is_nan b = false ->
     (fmin a b = a \/ fmin a b = b) /\ ~ below a (fmin a b) /\ ~ below b (fmin a b) /\
     (is_zero a = true -> is_zero b = true -> sign (fmin a b) = Z.min (sign a) (sign b))).
Proof.
  intros Ca Cb. unfold fmin. split; [intros ->; reflexivity|]. split; [intros -> ->; reflexivity|]. intros Na Nb. rewrite Na, Nb.
  assert (LT : forall x y, canonical x -> canonical y -> ltb x y = false -> ~ below x y) by (intros x y Cx Cy H B; apply ltb_spec in B; [congruence|assumption|assumption]).
  destruct (Z.eqb_spec (sign a) (sign b)) as [E|E]; cbn [negb].
  - destruct (ltb a b) eqn:L.
    + split; [left; reflexivity|]. split; [apply below_irrefl|]. split; [apply below_asym, ltb_spec; assumption|]. intros _ _. lia.
    + split; [right; reflexivity|]. split; [apply LT; assumption|]. split; [apply below_irrefl|]. intros _ _. lia.
  - destruct (Z.ltb_spec (sign a) (sign b)) as [L|L].
    + split; [left; reflexivity|]. split; [apply below_irrefl|]. split; [|intros _ _; lia]. apply LT; [assumption|assumption|].
      unfold ltb. rewrite Na, Nb. cbn [orb]. destruct (is_zero b && is_zero a); [reflexivity|].
      rewrite (proj2 (Z.eqb_neq (sign b) (sign a))) by congruence. cbn [negb]. apply Z.ltb_ge. lia.
    + split; [right; reflexivity|]. split; [|split; [apply below_irrefl|intros _ _; lia]]. apply LT; [assumption|assumption|].
      unfold ltb. rewrite Na, Nb. cbn [orb]. destruct (is_zero a && is_zero b); [reflexivity|].
      rewrite (proj2 (Z.eqb_neq (sign a) (sign b))) by congruence. cbn [negb]. apply Z.ltb_ge. lia.
Qed.
Lemma of_int_0 : of_int 0 = signed_zero 1.
Proof. vm_compute. reflexivity. Qed.
Theorem fdim_spec a b : canonical a -> canonical b ->
  (below a b \/ same_number a b -> fdim a b = signed_zero 1) /\
  (is_finite a = true -> is_finite b = true -> (value b < value a)%Q -> stored (value a - value b) (fdim a b)) /\
  (is_nan a = true \/ is_nan b = true -> is_nan (fdim a b) = true).
Proof.
  intros Ca Cb. unfold fdim. split; [|split].
  - intros H. apply leb_spec in H; [|assumption|assumption]. rewrite H. apply of_int_0.
  - intros Fa Fb L. destruct (leb a b) eqn:E; [|apply sub_exact; assumption].
    exfalso. apply leb_spec in E; [|assumption|assumption].
    assert (B : below b a) by (split; [apply finite_not_nan, Fb|]; split; [apply finite_not_nan, Fa|]; right; right; auto).
    destruct E as [E|E]; [apply (below_asym _ _ E B)|apply (same_not_below _ _ E B)].
  - intros H. assert (E : leb a b = false) by (unfold leb; destruct H as [-> | ->]; [reflexivity|rewrite orb_true_r; reflexivity]).
    rewrite E. apply sub_special; assumption.
Qed.

(** ** Scaling *)
Definition ldexp_safe (a : exactfloat) (e : Z) : Prop := is_normal a = false \/ exp a <= 0 \/ kMinExp - 1 + exp a <= e.
Lemma scaled_value a e : is_normal a = true -> (value a * pow2 e == inject_Z (sign a * bn a) * pow2 (bn_exp a + e))%Q.
Proof. intros N. rewrite value_normal by exact N. rewrite pow2_plus. ring. Qed.
Lemma stored_as_inf s q : (s = 1 \/ s = -1) -> (pow2 kMaxExp <= Qabs q)%Q -> stored_as s q (infinity s).
Proof.
  intros Hs H. split; [apply canonical_inf, Hs|]. split; [|split; [reflexivity|]].
  - intros L. exfalso. assert (kMaxExp < kMinExp - 1); [|kf; lia]. apply pow2_lt_inv. eapply Qle_lt_trans; eassumption.
  - intros _ L. exfalso. apply (Qlt_not_le _ _ L H).
Qed.
Lemma stored_as_under s q : (s = 1 \/ s = -1) -> (Qabs q < pow2 (kMinExp - 1))%Q -> stored_as s q (signed_zero s).
Proof.
  intros Hs H. split; [apply canonical_zero, Hs|]. split; [reflexivity|]. split.
  - intros L. exfalso. assert (kMaxExp < kMinExp - 1); [|kf; lia]. apply pow2_lt_inv. eapply Qle_lt_trans; eassumption.
  - intros L. exfalso. apply (Qlt_not_le _ _ H L).
Qed.
Theorem ldexp_ok a e : canonical a -> is_normal a = true -> exp a <= 0 \/ kMinExp - 1 + exp a <= e -> stored (value a * pow2 e) (ldexp a e).
Proof.
  intros C N S. unfold ldexp. rewrite N. cbn [negb]. cbv zeta.
  destruct (canonical_normal a C N) as (P & O & E & Pr). pose proof (canonical_sign a C) as Sg. kf.
  assert (EX : exp a = bn_exp a + num_bits (bn a)) by reflexivity. pose proof (num_bits_ge1 _ P).
  apply (stored_comp _ _ _ (Qeq_sym _ _ (scaled_value a e N))).
  apply (stored_as_stored (sign a)); [apply sm_pos; lia|apply sm_neg; lia|].
  pose proof (abs_sm (sign a) (bn a) (bn_exp a + e) Sg (Z.lt_le_incl _ _ P)) as A.
  set (e' := Z.min (kMaxExp + 1 - exp a) (Z.max (kMinExp - 1 + exp a) e)).
  assert (St : stored_as (sign a) (inject_Z (sign a * bn a) * pow2 (bn_exp a + e')) (canonicalize {| sign := sign a; bn_exp := bn_exp a + e'; bn := bn a |}))
    by (apply canonicalize_stored_as; [exact Sg|lia|unfold e'; lia]).
  pose proof (abs_sm (sign a) (bn a) (bn_exp a + e') Sg (Z.lt_le_incl _ _ P)) as A'.
  destruct (Z_lt_le_dec (kMaxExp + 1 - exp a) e) as [Hi|Hi].
  - assert (e' = kMaxExp + 1 - exp a) by (unfold e'; lia).
    destruct St as (_ & _ & U & _). rewrite U.
    + apply stored_as_inf; [exact Sg|]. rewrite A. apply mag_ge; [exact P|lia].
    + rewrite A'. apply mag_ge; [exact P|lia].
  - destruct (Z_le_gt_dec (kMinExp - 1 + exp a) e) as [Lo|Lo].
    + assert (H1 : e' = e) by (unfold e'; lia). rewrite H1 in *. exact St.
    + assert (e' = kMinExp - 1 + exp a) by (unfold e'; lia). destruct St as (_ & U & _). rewrite U.
      * apply stored_as_under; [exact Sg|]. rewrite A. apply mag_lt; [exact P|lia].
      * rewrite A'. apply mag_lt; [exact P|lia].
Qed.
(** Outside those bounds the exponent is clamped too early. *)
Theorem ldexp_bad a e : canonical a -> is_normal a = true -> 0 < exp a -> e < kMinExp - 1 + exp a ->
  is_normal (ldexp a e) = true /\ (value (ldexp a e) == value a * pow2 (kMinExp - 1 + exp a))%Q /\ ~ stored (value a * pow2 e) (ldexp a e).
Proof.
  intros C N P0 Lo. unfold ldexp. rewrite N. cbn [negb]. cbv zeta.
  destruct (canonical_normal a C N) as (P & O & E & Pr). pose proof (canonical_sign a C) as Sg. kf.
  assert (EX : exp a = bn_exp a + num_bits (bn a)) by reflexivity. pose proof (num_bits_ge1 _ P).
  replace (Z.min (kMaxExp + 1 - exp a) (Z.max (kMinExp - 1 + exp a) e)) with (kMinExp - 1 + exp a) by lia.
  set (e' := kMinExp - 1 + exp a) in *.
  assert (St : stored_as (sign a) (inject_Z (sign a * bn a) * pow2 (bn_exp a + e')) (canonicalize {| sign := sign a; bn_exp := bn_exp a + e'; bn := bn a |}))
    by (apply canonicalize_stored_as; [exact Sg|lia|unfold e'; lia]).
  pose proof (abs_sm (sign a) (bn a) (bn_exp a + e') Sg (Z.lt_le_incl _ _ P)) as A'.
  set (r := canonicalize {| sign := sign a; bn_exp := bn_exp a + e'; bn := bn a |}) in *.
  destruct (stored_as_exact _ _ _ St) as [Nr Vr].
  - rewrite A'. apply mag_ge; [exact P|unfold e'; lia].
  - rewrite A'. apply mag_lt; [exact P|unfold e'; lia].
  - apply fits_odd; [exact Sg|exact P|exact O|lia|exact Pr].
  - split; [exact Nr|]. split; [rewrite Vr; symmetry; apply scaled_value, N|].
    intros (_ & s & _ & _ & U & V & F).
    pose proof (abs_sm (sign a) (bn a) (bn_exp a + e) Sg (Z.lt_le_incl _ _ P)) as A. rewrite <- (scaled_value a e N) in A.
    destruct (Qlt_le_dec (Qabs (value a * pow2 e)) (pow2 (kMinExp - 1))) as [L|L].
    { rewrite (U L) in Nr. destruct (flags_zero s) as (G & _). congruence. }
    destruct (F L) as [F1 _].
    { rewrite A. apply mag_lt; [exact P|lia]. }
    destruct F1 as [_ V1].
    { apply (fits_comp _ _ _ (Qeq_sym _ _ (scaled_value a e N))). apply fits_odd; [exact Sg|exact P|exact O|lia|exact Pr]. }
    rewrite V1, (scaled_value a e N) in Vr.
    assert (Q : (inject_Z (bn a) * pow2 (bn_exp a + e) == inject_Z (bn a) * pow2 (bn_exp a + e'))%Q).
    { rewrite <- A'. rewrite <- Vr. symmetry. rewrite <- (scaled_value a e N). exact A. }
    apply odd_shortest in Q; [|exact P|exact O]. lia.
Qed.

Theorem frexp_ok a : canonical a -> is_normal a = true -> exp a <= 100000000 ->
  (1 # 2 <= Qabs (value (fst (frexp a))))%Q /\ (Qabs (value (fst (frexp a))) < 1)%Q /\
  (value a == value (fst (frexp a)) * pow2 (snd (frexp a)))%Q /\ is_normal (fst (frexp a)) = true.
Proof.
  intros C N L. unfold frexp. rewrite N. cbn [negb fst snd]. kf.
  destruct (canonical_normal a C N) as (P & O & E & Pr). destruct (value_bounds a C N) as [B1 B2].
  pose proof (pow2_pos (- exp a)) as PP.
  assert (Ab : (Qabs (value a * pow2 (- exp a)) == Qabs (value a) * pow2 (- exp a))%Q).
  { rewrite Qabs_Qmult. rewrite (Qabs_pos (pow2 (- exp a))) by (apply Qlt_le_weak, PP). reflexivity. }
  assert (Lw : (1 # 2 <= Qabs (value a * pow2 (- exp a)))%Q).
  { rewrite Ab. setoid_replace (1 # 2)%Q with (pow2 (exp a - 1) * pow2 (- exp a))%Q.
    - apply Qmult_le_compat_r; [exact B1|apply Qlt_le_weak, PP].
    - rewrite <- pow2_plus. replace (exp a - 1 + - exp a) with (-1) by lia. reflexivity. }
  assert (Up : (Qabs (value a * pow2 (- exp a)) < 1)%Q).
  { rewrite Ab. setoid_replace 1%Q with (pow2 (exp a) * pow2 (- exp a))%Q.
    - apply Qmult_lt_compat_r; [exact PP|exact B2].
    - rewrite <- pow2_plus. replace (exp a + - exp a) with 0 by lia. reflexivity. }
  assert (St : stored (value a * pow2 (- exp a)) (ldexp a (- exp a))) by (apply ldexp_ok; [exact C|exact N|lia]).
  destruct St as (_ & s & _ & _ & _ & _ & F). destruct F as [F _].
  - eapply Qle_trans; [|exact Lw]. change (1 # 2)%Q with (pow2 (-1)). apply pow2_le. lia.
  - eapply Qlt_le_trans; [exact Up|]. change 1%Q with (pow2 0). apply pow2_le. lia.
  - destruct F as [Nr V].
    + apply (fits_comp _ _ _ (Qeq_sym _ _ (scaled_value a _ N))). apply fits_odd; [apply canonical_sign, C|exact P|exact O|lia|exact Pr].
    + rewrite V. split; [exact Lw|]. split; [exact Up|]. split; [|exact Nr].
      rewrite <- Qmult_assoc, <- pow2_plus. replace (- exp a + exp a) with 0 by lia. change (pow2 0) with 1%Q. ring.
Qed.
Theorem frexp_bad a : canonical a -> is_normal a = true -> 100000000 < exp a -> (1 <= Qabs (value (fst (frexp a))))%Q.
Proof.
  intros C N L. unfold frexp. rewrite N. cbn [negb fst snd]. kf. destruct (value_bounds a C N) as [B1 B2].
  destruct (ldexp_bad a (- exp a) C N) as (_ & V & _); [lia|lia|]. rewrite V.
  pose proof (pow2_pos (kMinExp - 1 + exp a)) as PP. rewrite Qabs_Qmult. rewrite (Qabs_pos (pow2 _)) by (apply Qlt_le_weak, PP).
  apply Qle_trans with (pow2 (exp a - 1) * pow2 (kMinExp - 1 + exp a))%Q; [|apply Qmult_le_compat_r; [exact B1|apply Qlt_le_weak, PP]].
  rewrite <- pow2_plus. change 1%Q with (pow2 0). apply pow2_le. lia.
Qed.
Theorem scalbln_ldexp a e : canonical a -> scalbln a e = ldexp a e.
Proof.
  intros C. unfold scalbln, ldexp. destruct (is_normal a) eqn:N; [|reflexivity]. cbn [negb]. cbv zeta. kf.
  destruct (canonical_normal a C N) as (P & O & E & Pr). unfold INT_MIN, INT_MAX.
  replace (Z.min (kMaxExp + 1 - exp a) (Z.max (kMinExp - 1 + exp a) (Z.max (-2147483648) (Z.min 2147483647 e))))
    with (Z.min (kMaxExp + 1 - exp a) (Z.max (kMinExp - 1 + exp a) e)) by lia. reflexivity.
Qed.
Theorem ilogb_spec f0 fn a : canonical a -> is_normal a = true ->
  (pow2 (ilogb f0 fn a) <= Qabs (value a))%Q /\ (Qabs (value a) < pow2 (ilogb f0 fn a + 1))%Q /\ (value (logb a) == inject_Z (ilogb f0 fn a))%Q.
Proof.
  intros C N. unfold ilogb, logb. destruct (normal_flags a N) as (-> & -> & -> & _). destruct (value_bounds a C N) as [B1 B2].
  split; [exact B1|]. split; [replace (exp a - 1 + 1) with (exp a) by lia; exact B2|].
  destruct (canonical_normal a C N) as (P & O & E & Pr). kf. apply of_int_exact. unfold INT_MIN, INT_MAX. lia.
Qed.
