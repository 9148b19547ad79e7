(** Proofs about the motion tutorial. *)
From Coq Require Import QArith Lia Lqa.
From Verif Require Import Base ResultLib MonadLib ListLib MtutModel MtutSpec.
Open Scope list_scope.

(** * Targets *)
Lemma slice_nth {A} (l : list A) : forall wait step k, (0 < step)%nat -> nth_error (slice_from wait step l) k = nth_error l (wait + k * step).
Proof.
  induction l as [|a l IH]; intros wait step k H; cbn [slice_from].
  - destruct (wait + k * step)%nat; now destruct k.
  - destruct wait as [|w].
    + destruct k as [|k]; [reflexivity|]. cbn [nth_error]. rewrite IH by exact H. replace (0 + S k * step)%nat with (S (step - 1 + k * step)) by lia. reflexivity.
    + rewrite IH by exact H. reflexivity.
Qed.
Lemma subsample_exact {A} a b (l : list A) : (0 < b <= a)%nat ->
  exists out, subsample a b l = Ok out /\ forall k, nth_error out k = nth_error l ((k + 1) * (a / b) - 1).
Proof.
  intros H. unfold subsample. destruct b as [|b]; [lia|]. cbv zeta.
  assert (P : (0 < a / S b)%nat) by (apply Nat.div_str_pos; lia). destruct (a / S b)%nat as [|w] eqn:E; [lia|].
  eexists. split; [reflexivity|]. intros k. rewrite slice_nth by lia. f_equal. lia.
Qed.
Lemma subsample_error {A} a b (l : list A) : subsample a b l = Err ValueError <-> b = 0%nat \/ (a < b)%nat.
Proof.
  unfold subsample. destruct b as [|b]; [split; auto|]. cbv zeta. destruct (a / S b)%nat as [|w] eqn:E.
  - split; [|reflexivity]. intros _. right. apply Nat.div_small_iff in E; lia.
  - split; [discriminate|]. intros [C|C]; [discriminate|]. rewrite Nat.div_small in E by exact C. discriminate.
Qed.
Lemma nth_error_skipn' {A} n (l : list A) k : nth_error (skipn n l) k = nth_error l (n + k).
Proof. revert l. induction n as [|n IH]; intros l; [reflexivity|]. destruct l as [|a l]; [now destruct k|]. cbn. apply IH. Qed.
Lemma targets_future {S} h (t : track S) : List.length (past t) = h -> List.length (current t) = 1%nat -> gt_targets h t = future t.
Proof.
  intros H1 H2. unfold gt_targets, gt_future. rewrite app_assoc. rewrite skipn_app, app_length, H1, H2, Nat.sub_diag, skipn_all2 by (rewrite app_length; lia). reflexivity.
Qed.
Lemma target_times {S} h (t : track S) a b out : subsample a b (gt_targets h t) = Ok out ->
  forall k, nth_error out k = nth_error (gt_future t) (h + (k + 1) * (a / b)).
Proof.
  intros H k. assert (B : (0 < b <= a)%nat).
  { destruct (Nat.eq_dec b 0) as [E|E]; [rewrite (proj2 (subsample_error a b (gt_targets h t))) in H by auto; discriminate|].
    destruct (Nat.lt_ge_cases a b) as [C|C]; [rewrite (proj2 (subsample_error a b (gt_targets h t))) in H by auto; discriminate|lia]. }
  destruct (subsample_exact a b (gt_targets h t) B) as (o & Ho & N). rewrite Ho in H. apply Ok_inj in H. subst o. rewrite N. unfold gt_targets. rewrite nth_error_skipn'.
  f_equal. assert (P : (0 < a / b)%nat) by (apply Nat.div_str_pos; lia). nia.
Qed.

(** * Loss *)
Lemma qsum_eq l l' : Forall2 Qeq l l' -> (qsum l == qsum l')%Q.
Proof. induction 1 as [|a b l l' H _ IH]; cbn [qsum]; [reflexivity|]. now rewrite H, IH. Qed.
Lemma step_term t (s s' : bool * (point * point)) : same_step t s s' ->
  (weight t (fst s) * squared_error (fst (snd s)) (snd (snd s)) == weight t (fst s') * squared_error (fst (snd s')) (snd (snd s')))%Q.
Proof.
  intros (H1 & H2 & H3). rewrite <- H1, <- H2. destruct t, (fst s) eqn:E; unfold weight.
  - rewrite H3 by reflexivity. reflexivity.
  - ring.
  - ring.
  - ring.
Qed.
Lemma terms_same b b' : same_counted b b' -> Forall2 Qeq (terms b) (terms b').
Proof.
  intros H. induction H as [|[t s] [t' s'] b b' [H1 H2] _ IH]; [constructor|]. cbn [terms flat_map]. cbn in H1. subst t'. cbn [fst snd] in *.
  apply Forall2_app; [|exact IH]. clear IH. induction H2 as [|x y s s' Hx _ I]; [constructor|]. cbn [map]. constructor; [now apply step_term|exact I].
Qed.
Lemma loss_same b b' : same_counted b b' -> (loss_value b == loss_value b')%Q.
Proof.
  intros H. apply terms_same in H. unfold loss_value. inversion H as [|x y l l' Hx Hl E1 E2]; [reflexivity|].
  assert (L : List.length (x :: l) = List.length (y :: l')) by (cbn; f_equal; clear -Hl; induction Hl; cbn; congruence).
  rewrite L, (qsum_eq (x :: l) (y :: l')) by (now constructor). reflexivity.
Qed.
Lemma squared_nonneg t p : (0 <= squared_error t p)%Q.
Proof. unfold squared_error. set (a := (fst t - fst p)%Q). set (b := (snd t - snd p)%Q). assert (0 <= a * a)%Q by nra. assert (0 <= b * b)%Q by nra. apply Qle_shift_div_l; lra. Qed.
Lemma squared_zero t p : (squared_error t p == 0)%Q <-> (fst t == fst p)%Q /\ (snd t == snd p)%Q.
Proof.
  unfold squared_error. split.
  - intros H. assert (E : ((fst t - fst p) * (fst t - fst p) + (snd t - snd p) * (snd t - snd p) == 0)%Q).
    { setoid_replace ((fst t - fst p) * (fst t - fst p) + (snd t - snd p) * (snd t - snd p))%Q with ((((fst t - fst p) * (fst t - fst p) + (snd t - snd p) * (snd t - snd p)) / 2) * 2)%Q by field. rewrite H. ring. }
    set (a := (fst t - fst p)%Q) in *. set (b := (snd t - snd p)%Q) in *. assert (A : (0 <= a * a)%Q) by nra. assert (B : (0 <= b * b)%Q) by nra.
    assert (a * a == 0)%Q by lra. assert (b * b == 0)%Q by lra. split.
    + assert (a == 0)%Q by (destruct (Qmult_integral _ _ H0); assumption). unfold a in *. lra.
    + assert (b == 0)%Q by (destruct (Qmult_integral _ _ H1); assumption). unfold b in *. lra.
  - intros [H1 H2]. rewrite H1, H2. field.
Qed.
Lemma qsum_zero l : (forall x, In x l -> (0 <= x)%Q) -> ((qsum l == 0)%Q <-> forall x, In x l -> (x == 0)%Q) /\ (0 <= qsum l)%Q.
Proof.
  induction l as [|a l IH]; intros H; cbn [qsum].
  - split; [|lra]. split; [intros _ x []|reflexivity].
  - destruct IH as [I1 I2]; [intros x Hx; apply H; now right|]. assert (A : (0 <= a)%Q) by (apply H; now left). split; [|lra]. split.
    + intros E x [<-|Hx]; [lra|]. apply I1; [lra|exact Hx].
    + intros E. rewrite (E a (or_introl eq_refl)). rewrite (proj2 I1); [lra|]. intros x Hx. apply E. now right.
Qed.
Lemma terms_in b x : In x (terms b) <-> exists t steps v target pred, In (t, steps) b /\ In (v, (target, pred)) steps /\ x = (weight t v * squared_error target pred)%Q.
Proof.
  unfold terms. rewrite in_flat_map. split.
  - intros ([t steps] & H1 & H2). apply in_map_iff in H2 as ([v [tg pr]] & <- & H). exists t, steps, v, tg, pr. auto.
  - intros (t & steps & v & tg & pr & H1 & H2 & ->). exists (t, steps). split; [exact H1|]. apply in_map_iff. exists (v, (tg, pr)). auto.
Qed.
Lemma loss_zero b : (loss_value b == 0)%Q <-> forall target pred, counted b target pred -> (fst target == fst pred)%Q /\ (snd target == snd pred)%Q.
Proof.
  assert (P : forall x, In x (terms b) -> (0 <= x)%Q).
  { intros x Hx. apply terms_in in Hx as (t & st & v & tg & pr & _ & _ & ->). apply Qmult_le_0_compat; [destruct t, v; unfold weight; lra|apply squared_nonneg]. }
  assert (L : (loss_value b == 0)%Q <-> forall x, In x (terms b) -> (x == 0)%Q).
  { rewrite <- (proj1 (qsum_zero _ P)). unfold loss_value. destruct (terms b) as [|x l]; [reflexivity|]. set (n := inject_Z (Z.of_nat (List.length (x :: l)))).
    assert (N : (0 < n)%Q) by (unfold n; change 0%Q with (inject_Z 0); rewrite <- Zlt_Qlt; cbn [List.length]; lia). split; intros H.
    - setoid_replace (qsum (x :: l)) with (qsum (x :: l) / n * n)%Q by (field; lra). rewrite H. ring.
    - rewrite H. field. lra. }
  rewrite L. split.
  - intros H tg pr (steps & H1 & H2). apply squared_zero. specialize (H (weight true true * squared_error tg pr)%Q). rewrite <- (H (proj2 (terms_in b _) (ex_intro _ true (ex_intro _ steps (ex_intro _ true (ex_intro _ tg (ex_intro _ pr (conj H1 (conj H2 eq_refl))))))))).
    unfold weight. ring.
  - intros H x Hx. apply terms_in in Hx as (t & st & v & tg & pr & H1 & H2 & ->). destruct t, v; unfold weight; try ring.
    assert (E : (squared_error tg pr == 0)%Q) by (apply squared_zero, H; exists st; auto). rewrite E. ring.
Qed.
Lemma loss_diluted_refuted : exists b a, fst a = false /\ (loss_value (b ++ [a]) < loss_value b)%Q.
Proof. exists [(true, [(true, ((0, 0), (2, 0)))])]%Q, (false, [(true, ((0, 0), (0, 0)))])%Q. split; [reflexivity|]. vm_compute. reflexivity. Qed.

(** * Training loop *)
Lemma run_batches_spec {W B P} (train : W -> B -> W * list P) n bs : forall step w acc, (step <= n)%nat ->
  run_batches train n step bs w acc = (fst (trained train w (firstn (S n - step) bs)), acc ++ snd (trained train w (firstn (S n - step) bs))).
Proof.
  induction bs as [|b bs IH]; intros step w acc H; cbn [run_batches].
  - rewrite firstn_nil. cbn. now rewrite app_nil_r.
  - replace (S n - step)%nat with (S (n - step)) by lia. cbn [firstn trained]. destruct (train w b) as [w' ps]. cbn [fst snd].
    destruct (Nat.leb_spec n step) as [E|E].
    + replace (n - step)%nat with O by lia. cbn. now rewrite app_nil_r.
    + rewrite IH by lia. replace (S n - S step)%nat with (n - step)%nat by lia. now rewrite app_assoc.
Qed.
Lemma trained_app {W B P} (train : W -> B -> W * list P) a : forall w b,
  trained train w (a ++ b) = (fst (trained train (fst (trained train w a)) b), snd (trained train w a) ++ snd (trained train (fst (trained train w a)) b)).
Proof.
  induction a as [|x a IH]; intros w b; cbn [app trained fst snd]; [now rewrite <- surjective_pairing|]. rewrite IH. cbn [fst snd]. now rewrite app_assoc.
Qed.
Lemma epochs_general {W B P} (train : W -> B -> W * list P) n bs : forall epochs w acc i, (i < epochs)%nat ->
  nth_error (run_epochs train n epochs bs w acc) i = Some (acc ++ snd (trained train w (concat (repeat (firstn (n + 1) bs) (i + 1))))).
Proof.
  induction epochs as [|e IH]; intros w acc i H; [lia|]. cbn [run_epochs]. rewrite run_batches_spec by lia. replace (S n - 0)%nat with (n + 1)%nat by lia.
  destruct i as [|i].
  - cbn [nth_error Nat.add repeat concat]. now rewrite app_nil_r.
  - cbn [nth_error]. rewrite IH by lia. f_equal. replace (S i + 1)%nat with (S (i + 1)) by lia. cbn [repeat concat]. rewrite trained_app. cbn [snd]. now rewrite app_assoc.
Qed.
Lemma epochs_exact {W B P} (train : W -> B -> W * list P) n epochs bs w :
  List.length (run_epochs train n epochs bs w []) = epochs /\ forall i, (i < epochs)%nat ->
  nth_error (run_epochs train n epochs bs w []) i = Some (snd (trained train w (concat (repeat (firstn (n + 1) bs) (i + 1))))).
Proof.
  split; [|intros i H; now rewrite epochs_general].
  enough (G : forall w acc, List.length (run_epochs train n epochs bs w acc) = epochs) by apply G. induction epochs as [|e IH]; intros v acc; [reflexivity|]. cbn [run_epochs].
  destruct (run_batches train n 0 bs v acc) as [w' acc']. cbn [List.length]. f_equal. apply IH.
Qed.
Lemma epochs_refuted : exists (train : nat -> nat -> nat * list nat) bs w second w1,
  nth_error (run_epochs train 10 2 bs w []) 1 = Some second /\ w1 = fst (trained train w (firstn 11 bs)) /\ second <> snd (trained train w1 (firstn 11 bs)).
Proof. exists (fun w b => (S w, [w])), [O], O, [0; 1]%nat, 1%nat. split; [reflexivity|]. split; [reflexivity|]. cbn. discriminate. Qed.
Lemma batches_bound {A} (l : list A) k : (List.length (concat (firstn k (batches 32 l))) <= 32 * k)%nat.
Proof.
  assert (G : forall bs : list (list A), (forall b, In b bs -> List.length b <= 32)%nat -> forall k, (List.length (concat (firstn k bs)) <= 32 * k)%nat).
  { induction bs as [|b bs IH]; intros H [|k']; cbn [firstn concat List.length]; try lia. rewrite app_length. specialize (H b (or_introl eq_refl)) as Hb.
    assert (I : (List.length (concat (firstn k' bs)) <= 32 * k')%nat) by (apply IH; intros x Hx; apply H; now right). lia. }
  apply G. intros b Hb. unfold batches in Hb. apply in_map_iff in Hb as (i & <- & _). apply firstn_le_length.
Qed.
Lemma progress_wrong {A} (l : list A) n step printed : In (step, printed) (progress n (batches 32 l)) -> (2 * List.length (concat (firstn (step + 1) (batches 32 l))) <= printed)%nat.
Proof.
  intros H. unfold progress in H. apply in_map_iff in H as (s & E & _). injection E as <- <-. pose proof (batches_bound l (s + 1)). lia.
Qed.
Lemma batches_concat {A} n (l : list A) : (0 < n)%nat -> concat (batches n l) = l.
Proof.
  intros N. unfold batches.
  assert (G : forall m s, (List.length l <= (s + m) * n)%nat -> concat (map (fun i => firstn n (skipn (i * n) l)) (seq s m)) = skipn (s * n) l).
  { induction m as [|m IH]; intros s H; cbn [seq map concat]; [symmetry; apply skipn_all2; lia|]. rewrite IH by lia.
    rewrite <- (firstn_skipn n (skipn (s * n) l)) at 2. f_equal. replace (S s * n)%nat with (s * n + n)%nat by lia. clear.
    revert l. induction (s * n)%nat as [|k IHk]; intros l; [reflexivity|]. destruct l as [|a l]; cbn [Nat.add skipn]; [now rewrite skipn_nil|]. apply IHk. }
  rewrite G; [reflexivity|]. pose proof (Nat.div_mod (List.length l + n - 1) n ltac:(lia)) as D. pose proof (Nat.mod_upper_bound (List.length l + n - 1) n ltac:(lia)). nia.
Qed.
Lemma progress_refuted : exists (l : list nat) step printed, In (step, printed) (progress 10 (batches 32 l)) /\ printed <> List.length (concat (firstn (step + 1) (batches 32 l))).
Proof. exists (repeat O 32), O, 64%nat. split; [vm_compute; now left|]. vm_compute. discriminate. Qed.

(** * Pictures *)
Lemma qmax_spec a b : (a <= qmax a b)%Q /\ (b <= qmax a b)%Q /\ (qmax a b = a \/ qmax a b = b).
Proof.
  unfold qmax. destruct (Qle_bool b a) eqn:E; [apply Qle_bool_iff in E; repeat split; try lra; now left|].
  assert (a < b)%Q by (apply Qnot_le_lt; intros C; apply Qle_bool_iff in C; congruence). repeat split; try lra. now right.
Qed.
Lemma qmin_spec a b : (qmin a b <= a)%Q /\ (qmin a b <= b)%Q /\ (qmin a b = a \/ qmin a b = b).
Proof.
  unfold qmin. destruct (Qle_bool a b) eqn:E; [apply Qle_bool_iff in E; repeat split; try lra; now left|].
  assert (b < a)%Q by (apply Qnot_le_lt; intros C; apply Qle_bool_iff in C; congruence). repeat split; try lra. now right.
Qed.
Lemma max_spec l m : np_max l = Ok m -> In m l /\ forall x, In x l -> (x <= m)%Q.
Proof.
  destruct l as [|a l]; [discriminate|]. cbn [np_max]. intros H. apply Ok_inj in H. subst m. revert a. induction l as [|b l IH]; intros a; cbn [fold_left].
  - split; [now left|]. intros x [<-|[]]. lra.
  - destruct (IH (qmax a b)) as [I1 I2]. destruct (qmax_spec a b) as (A & B & C). split.
    + destruct I1 as [I1|I1]; [|right; now right]. rewrite <- I1. destruct C as [->| ->]; [now left|right; now left].
    + intros x [<-|[<-|H]]; [|(eapply Qle_trans; [exact B|apply I2; now left])|apply I2; now right]. eapply Qle_trans; [exact A|apply I2; now left].
Qed.
Lemma min_spec l m : np_min l = Ok m -> In m l /\ forall x, In x l -> (m <= x)%Q.
Proof.
  destruct l as [|a l]; [discriminate|]. cbn [np_min]. intros H. apply Ok_inj in H. subst m. revert a. induction l as [|b l IH]; intros a; cbn [fold_left].
  - split; [now left|]. intros x [<-|[]]. lra.
  - destruct (IH (qmin a b)) as [I1 I2]. destruct (qmin_spec a b) as (A & B & C). split.
    + destruct I1 as [I1|I1]; [|right; now right]. rewrite <- I1. destruct C as [->| ->]; [now left|right; now left].
    + intros x [<-|[<-|H]]; [|(eapply Qle_trans; [apply I2; now left|exact B])|apply I2; now right]. eapply Qle_trans; [apply I2; now left|exact A].
Qed.
Lemma select_seen states p : In p (select states) <-> seen states p.
Proof.
  unfold select, seen. rewrite in_flat_map. split.
  - intros (l & H1 & H2). apply in_flat_map in H2 as ([v q] & H2 & H3). exists l. split; [exact H1|]. cbn in H3. destruct v; [destruct H3 as [<-|[]]; exact H2|destruct H3].
  - intros (l & H1 & H2). exists l. split; [exact H1|]. apply in_flat_map. exists (true, p). split; [exact H2|]. now left.
Qed.
Lemma viewport_covers states cy cx w left right bottom top : get_viewport states = Ok (cy, cx, w) -> limits cy cx w = (left, right, bottom, top) ->
  (right - left == top - bottom)%Q /\ (10 <= right - left)%Q /\
  (forall x y, seen states (x, y) -> (left <= x <= right)%Q /\ (bottom <= y <= top)%Q) /\
  ((10 < right - left)%Q -> (exists p q, seen states p /\ seen states q /\ (fst p == left)%Q /\ (fst q == right)%Q) \/
                            (exists p q, seen states p /\ seen states q /\ (snd p == bottom)%Q /\ (snd q == top)%Q)).
Proof.
  unfold get_viewport. cbv zeta. intros H L. apply bind_inv in H as (my & Hmy & H). apply bind_inv in H as (ny & Hny & H). apply bind_inv in H as (mx & Hmx & H). apply bind_inv in H as (nx & Hnx & H).
  apply Ok_inj in H. injection H as Ecy Ecx Ew. apply max_spec in Hmy as [My1 My2], Hmx as [Mx1 Mx2]. apply min_spec in Hny as [Ny1 Ny2], Hnx as [Nx1 Nx2].
  unfold limits in L. cbv zeta in L. set (size := qmax 10 (w * 1)) in *. destruct (qmax_spec 10 (w * 1)) as (S1 & S2 & S3). fold size in S1, S2, S3.
  destruct (qmax_spec (my - ny) (mx - nx)) as (W1 & W2 & W3). rewrite Ew in W1, W2, W3.
  injection L as EL ER EB ET.
  assert (HL : (left == cx - size / 2)%Q) by (rewrite <- EL; field). assert (HR : (right == cx + size / 2)%Q) by (rewrite <- ER; field).
  assert (HB : (bottom == cy - size / 2)%Q) by (rewrite <- EB; field). assert (HT : (top == cy + size / 2)%Q) by (rewrite <- ET; field).
  assert (HH : (2 * (size / 2) == size)%Q) by field. set (h := (size / 2)%Q) in *.
  assert (HX : (2 * cx == mx + nx)%Q) by (rewrite <- Ecx; field). assert (HY : (2 * cy == my + ny)%Q) by (rewrite <- Ecy; field). clearbody h.
  clear EL ER EB ET Ecx Ecy Ew. split; [lra|]. split; [lra|]. split.
  - intros x y Hs. apply select_seen in Hs. pose proof (Mx2 x (in_map fst _ _ Hs)). pose proof (Nx2 x (in_map fst _ _ Hs)). pose proof (My2 y (in_map snd _ _ Hs)). pose proof (Ny2 y (in_map snd _ _ Hs)). lra.
  - intros G. destruct S3 as [S3|S3]; [exfalso; assert (size == 10)%Q by (rewrite S3; reflexivity); lra|]. assert (Sw : (size == w)%Q) by (rewrite S3; ring). clear S3.
    apply in_map_iff in Mx1 as (pmx & E1 & Mx1). apply in_map_iff in Nx1 as (pnx & E2 & Nx1). apply in_map_iff in My1 as (pmy & E3 & My1). apply in_map_iff in Ny1 as (pny & E4 & Ny1).
    apply select_seen in Mx1, Nx1, My1, Ny1. destruct W3 as [W3|W3]; [right; exists pny, pmy|left; exists pnx, pmx].
    + assert (w == my - ny)%Q by (rewrite W3; reflexivity). rewrite E3, E4. repeat split; try assumption; lra.
    + assert (w == mx - nx)%Q by (rewrite W3; reflexivity). rewrite E1, E2. repeat split; try assumption; lra.
Qed.
Lemma viewport_exists states : ((exists v, get_viewport states = Ok v) <-> exists p, seen states p) /\ ((forall p, ~ seen states p) -> get_viewport states = Err ValueError).
Proof.
  unfold get_viewport. cbv zeta. destruct (select states) as [|p l] eqn:E.
  - cbn. split; [|reflexivity]. split; [intros (v & H); discriminate|]. intros (p & H). apply select_seen in H. rewrite E in H. destruct H.
  - assert (S : seen states p) by (apply select_seen; rewrite E; now left). split.
    + split; [intros _; now exists p|]. intros _. cbn [map np_max np_min bind]. eexists. reflexivity.
    + intros H. destruct (H p S).
Qed.
Lemma past_nth {S} (l : list S) : List.length (past_images l) = List.length l /\
  forall j t s, nth_error (past_images l) j = Some (t, s) -> nth_error l j = Some s /\ relative_step t = (Z.of_nat j - Z.of_nat (List.length l))%Z.
Proof.
  induction l as [|a l [I1 I2]]; [split; [reflexivity|]; intros [|j]; discriminate|]. cbn [past_images]. split; [cbn; now rewrite I1|]. intros [|j] t s H.
  - cbn [nth_error] in H. injection H as <- <-. split; [reflexivity|]. cbn [relative_step List.length]. lia.
  - cbn [nth_error] in *. apply I2 in H as [H1 H2]. split; [exact H1|]. cbn [List.length]. lia.
Qed.
Lemma future_nth {S} (l : list S) : forall i, List.length (future_images i l) = List.length l /\
  forall j t s, nth_error (future_images i l) j = Some (t, s) -> nth_error l j = Some s /\ relative_step t = (Z.of_nat (i + j) + 1)%Z.
Proof.
  induction l as [|a l IH]; intros i; [split; [reflexivity|]; intros [|j]; discriminate|]. cbn [future_images]. destruct (IH (i + 1)%nat) as [I1 I2]. split; [cbn; now rewrite I1|]. intros [|j] t s H.
  - cbn [nth_error] in H. injection H as <- <-. split; [reflexivity|]. cbn [relative_step List.length]. lia.
  - cbn [nth_error] in *. apply I2 in H as [H1 H2]. split; [exact H1|]. lia.
Qed.
Lemma images_exact {S} (past current future : list S) images : all_images past current future = Ok images ->
  List.length images = (List.length past + 1 + List.length future)%nat /\
  forall j t s, nth_error images j = Some (t, s) -> nth_error (past ++ firstn 1 current ++ future) j = Some s /\ relative_step t = (Z.of_nat j - Z.of_nat (List.length past))%Z.
Proof.
  intros H. destruct (past_nth past) as [P1 P2]. destruct (future_nth future 0) as [F1 F2].
  assert (E : exists c cs, current = c :: cs /\ images = past_images past ++ [(Current, c)] ++ future_images 0 future).
  { unfold all_images in H. destruct past as [|p ps]; [discriminate|]. destruct current as [|c cs]; [now destruct future|]. destruct future as [|f fs]; [discriminate|]. apply Ok_inj in H. exists c, cs. split; [reflexivity|now symmetry]. }
  destruct E as (c & cs & -> & ->). cbn [firstn app]. split; [rewrite app_length; cbn [List.length]; lia|]. intros j t s Hj.
  destruct (Nat.lt_ge_cases j (List.length past)) as [L|L].
  - rewrite nth_error_app1 in Hj by lia. rewrite nth_error_app1 by lia. now apply P2.
  - rewrite nth_error_app2 in Hj by lia. rewrite nth_error_app2 by lia. rewrite P1 in Hj. destruct (j - List.length past)%nat as [|k] eqn:E.
    + cbn [nth_error] in *. injection Hj as <- <-. split; [reflexivity|]. cbn [relative_step List.length]. lia.
    + cbn [nth_error] in *. apply F2 in Hj as [H1 H2]. split; [exact H1|]. lia.
Qed.
Lemma images_error {S} (past current future : list S) :
  (exists images, all_images past current future = Ok images) <-> past <> [] /\ current <> [] /\ future <> [].
Proof.
  unfold all_images. destruct past as [|p ps], current as [|c cs], future as [|f fs]; (split; [intros (i & H); try discriminate; repeat split; discriminate|intros (A & B & C); try congruence; eexists; reflexivity]).
Qed.
Lemma animation_half {I} (images : list I) : (exists hidden, images = animation images ++ hidden) /\
  List.length (animation images) = (List.length images / 2)%nat /\ (images <> [] -> animation images <> images).
Proof.
  unfold animation. split; [exists (skipn (List.length images / 2) images); now rewrite firstn_skipn|].
  assert (L : List.length (firstn (List.length images / 2) images) = (List.length images / 2)%nat).
  { apply firstn_length_le. apply Nat.div_le_upper_bound; lia. }
  split; [exact L|]. intros N E. rewrite E in L. destruct images as [|i l]; [congruence|]. assert (D : (List.length (i :: l) / 2 < List.length (i :: l))%nat) by (apply Nat.div_lt; cbn; lia). lia.
Qed.
Lemma valid_exact {S} (t : track S) : sample_is_valid t = true <-> exists s, In (true, s) (past t) \/ In (true, s) (current t).
Proof.
  unfold sample_is_valid. rewrite existsb_exists. split.
  - intros ([v s] & H & E). cbn in E. subst v. apply in_app_iff in H. now exists s.
  - intros (s & H). exists (true, s). split; [now apply in_app_iff|reflexivity].
Qed.
