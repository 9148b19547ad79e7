From Verif Require Import Base HungarianModel HungarianProofs MatcherModel MatcherCacheModel MatcherCacheSpec.
Open Scope Z_scope.

Section P.
Context {box : Type}.

(** A cache is either not allocated or every entry is unset or right. *)
Definition cache_ok (c : list (list Q)) (ps gs : option (list (object box)))
  (compute : object box -> object box -> result Q) : Prop :=
  c = [] \/
  exists pl gl, ps = Some pl /\ gs = Some gl /\ length c = length pl /\
    forall p g po go, nth_error pl p = Some po -> nth_error gl g = Some go ->
      (length (nth p c []) = length gl) /\
      (nth g (nth p c []) 0%Q = (-1 # 1)%Q \/ Ok (nth g (nth p c []) 0%Q) = compute po go).

Definition nonneg_results (compute : object box -> object box -> result Q) : Prop :=
  forall po go q, compute po go = Ok q -> (0 <= q)%Q.

Lemma nth_repeat_lt {A} (a d : A) n k : (k < n)%nat -> nth k (repeat a n) d = a.
Proof.
  intros H. rewrite (nth_indep _ d a) by (now rewrite repeat_length). apply nth_repeat.
Qed.

Lemma nth_error_lt {A} (l : list A) i a : nth_error l i = Some a -> (i < length l)%nat.
Proof. intros H. apply nth_error_Some. congruence. Qed.

Lemma cached_ok c pl gl p g po go compute :
  cache_ok c (Some pl) (Some gl) compute -> nonneg_results compute ->
  nth_error pl p = Some po -> nth_error gl g = Some go ->
  let r := cached c (length pl) (length gl) p g (compute po go) in
  fst r = compute po go /\ cache_ok (snd r) (Some pl) (Some gl) compute.
Proof.
  intros HC HN Ep Eg. pose proof (nth_error_lt _ _ _ Ep) as Lp. pose proof (nth_error_lt _ _ _ Eg) as Lg.
  unfold cached.
  set (c1 := match c with [] => repeat (repeat (-1 # 1)%Q (length gl)) (length pl) | _ => c end).
  assert (HC1 : length c1 = length pl /\
    forall p g po go, nth_error pl p = Some po -> nth_error gl g = Some go ->
      (length (nth p c1 []) = length gl) /\
      (nth g (nth p c1 []) 0%Q = (-1 # 1)%Q \/ Ok (nth g (nth p c1 []) 0%Q) = compute po go)).
  { destruct c as [|r0 c'].
    - subst c1. split; [apply repeat_length|]. intros p' g' po' go' Ep' Eg'.
      apply nth_error_lt in Ep'. apply nth_error_lt in Eg'.
      rewrite nth_repeat_lt by exact Ep'. split; [apply repeat_length|]. left.
      now apply nth_repeat_lt.
    - destruct HC as [HC|(pl' & gl' & [= <-] & [= <-] & H1 & H2)]; [discriminate|]. subst c1. auto. }
  clearbody c1. destruct HC1 as [L1 H1].
  destruct (H1 _ _ _ _ Ep Eg) as [Lr Hv].
  set (v := nth g (nth p c1 []) 0%Q) in *.
  assert (Hkeep : cache_ok c1 (Some pl) (Some gl) compute).
  { right. exists pl, gl. repeat split; auto; apply (H1 p0 g0 po0 go0 H H0). }
  destruct (Qlt_bool v 0) eqn:Ev.
  - destruct (compute po go) as [q|e] eqn:Ec; cbn [fst snd]; split; auto.
    right. exists pl, gl. split; [reflexivity|]. split; [reflexivity|]. split; [now rewrite upd_length|].
    intros p' g' po' go' Ep' Eg'. destruct (H1 _ _ _ _ Ep' Eg') as [Lr' Hv'].
    destruct (Nat.eq_dec p' p) as [->|Hp].
    + rewrite nth_upd_eq by lia. split; [now rewrite upd_length|].
      destruct (Nat.eq_dec g' g) as [->|Hg].
      * rewrite nth_upd_eq by lia. right. congruence.
      * rewrite nth_upd_neq by congruence. exact Hv'.
    + rewrite nth_upd_neq by congruence. split; [exact Lr'|exact Hv'].
  - cbn [fst snd]. split; [|exact Hkeep]. destruct Hv as [Hv|Hv]; [|exact Hv].
    exfalso. rewrite Hv in Ev. discriminate.
Qed.

Definition aff_compute (f : option (box -> box -> Q)) (po go : object box) : result Q :=
  match f with Some f => aff_value box f po go | None => Ok 1%Q end.
Definition iou_compute (f : box -> box -> Q) (po go : object box) : result Q :=
  check_unit (if Nat.eqb (otype po) (otype go) then f (obox po) (obox go) else 0).

Lemma check_unit_nonneg q r : check_unit q = Ok r -> (0 <= r)%Q.
Proof.
  unfold check_unit. destruct (Qle_bool 0 q) eqn:E; cbn [andb]; [|discriminate].
  destruct (Qle_bool q 1); [|discriminate]. intros [= <-]. now apply Qle_bool_iff.
Qed.

Lemma iou_nonneg f : nonneg_results (iou_compute f).
Proof. intros po go q. apply check_unit_nonneg. Qed.

Lemma aff_nonneg f : nonneg_results (aff_compute f).
Proof.
  intros po go q. unfold aff_compute, aff_value. destruct f as [f|]; [|intros [= <-]; discriminate].
  destruct (Nat.eqb (otype po) (otype go)); [apply check_unit_nonneg|]. intros [= <-]. apply Qle_refl.
Qed.

Definition view_of (s : state box) : view box :=
  {| vpreds := mpreds s; vgts := mgts s; viou := miou s; vaff := maff s |}.

Record good (asked : bool) (s : state box) : Prop := {
  g_iou : cache_ok (iou_cache s) (mpreds s) (mgts s) (iou_compute (miou s));
  g_aff : cache_ok (aff_cache s) (mpreds s) (mgts s) (aff_compute (maff s));
  g_fresh : asked = false -> iou_cache s = [] /\ aff_cache s = [] }.

Lemma run_transparent ops : forall asked s,
  good asked s -> functions_set_before_queries asked ops ->
  run box s ops = run_uncached (view_of s) ops.
Proof.
  induction ops as [|o ops IH]; intros asked s HG HF; [reflexivity|].
  destruct o as [l|l|f|f|p g|p g]; cbn [run step fst snd app run_uncached functions_set_before_queries] in *.
  - apply (IH false); [|exact HF]. constructor; [now left|now left|split; reflexivity].
  - apply (IH false); [|exact HF]. constructor; [now left|now left|split; reflexivity].
  - destruct HF as [Ha HF]. subst asked. destruct (g_fresh _ _ HG eq_refl) as [E1 E2].
    apply (IH false); [|exact HF]. constructor; cbn; [now left|now left|split; assumption].
  - destruct HF as [Ha HF]. subst asked. destruct (g_fresh _ _ HG eq_refl) as [E1 E2].
    apply (IH false); [|exact HF]. constructor; cbn; [now left|now left|split; assumption].
  - unfold answer_iou, pair_of, lookup. cbn [view_of vpreds vgts].
    assert (Hsame : functions_set_before_queries true ops -> run box s ops = run_uncached (view_of s) ops).
    { intros HF'. apply (IH true); [|exact HF']. constructor; [apply HG|apply HG|discriminate]. }
    destruct (mpreds s) as [ps|] eqn:Eps; [|cbn [fst snd app]; f_equal; now apply Hsame].
    destruct (mgts s) as [gs|] eqn:Egs; [|cbn [fst snd app]; f_equal; now apply Hsame].
    destruct (nth_error ps p) as [po|] eqn:Ep; [|cbn [fst snd app]; f_equal; now apply Hsame].
    destruct (nth_error gs g) as [go|] eqn:Eg; [|cbn [fst snd app]; f_equal; now apply Hsame].
    pose proof (g_iou _ _ HG) as HC. rewrite Eps, Egs in HC.
    pose proof (cached_ok _ ps gs p g po go _ HC (iou_nonneg (miou s)) Ep Eg) as HR. cbv zeta in HR.
    change (iou_value box s po go) with (iou_compute (miou s) po go).
    destruct (cached (iou_cache s) (length ps) (length gs) p g (iou_compute (miou s) po go)) as [r c].
    cbn [fst snd app] in *. destruct HR as [-> HC']. f_equal.
    rewrite (IH true); [|constructor; cbn; [exact HC'| |discriminate]|exact HF].
    + unfold view_of. cbn. now rewrite Eps, Egs.
    + rewrite <- Eps, <- Egs. apply HG.
  - unfold answer_affinity, pair_of, lookup. cbn [view_of vpreds vgts vaff].
    assert (Hsame : functions_set_before_queries true ops -> run box s ops = run_uncached (view_of s) ops).
    { intros HF'. apply (IH true); [|exact HF']. constructor; [apply HG|apply HG|discriminate]. }
    destruct (mpreds s) as [ps|] eqn:Eps; [|cbn [fst snd app]; f_equal; now apply Hsame].
    destruct (mgts s) as [gs|] eqn:Egs; [|cbn [fst snd app]; f_equal; now apply Hsame].
    destruct (nth_error ps p) as [po|] eqn:Ep; [|cbn [fst snd app]; f_equal; now apply Hsame].
    destruct (nth_error gs g) as [go|] eqn:Eg; [|cbn [fst snd app]; f_equal; now apply Hsame].
    pose proof (g_aff _ _ HG) as HC. pose proof (aff_nonneg (maff s)) as HN.
    destruct (maff s) as [f|] eqn:Ef; [|cbn [fst snd app]; f_equal; now apply Hsame].
    rewrite Eps, Egs in HC.
    pose proof (cached_ok _ ps gs p g po go _ HC HN Ep Eg) as HR. cbv zeta in HR.
    change (aff_compute (Some f) po go) with (aff_value box f po go) in HR.
    destruct (cached (aff_cache s) (length ps) (length gs) p g (aff_value box f po go)) as [r c].
    cbn [fst snd app] in *. destruct HR as [-> HC']. f_equal.
    rewrite (IH true); [|constructor; cbn; [| exact HC'|discriminate]|exact HF].
    + unfold view_of. cbn. now rewrite Eps, Egs, Ef.
    + rewrite <- Eps, <- Egs. apply HG.
Qed.

Lemma run_init_transparent iou0 ops :
  functions_set_before_queries false ops ->
  run box (init box iou0) ops =
  run_uncached {| vpreds := None; vgts := None; viou := iou0; vaff := None |} ops.
Proof.
  intros HF. apply (run_transparent ops false (init box iou0)); [|exact HF].
  constructor; [now left|now left|split; reflexivity].
Qed.
End P.

Definition stale_ops : list (op unit) :=
  let o := {| otype := 1; oscore := 0; obox := tt |} in
  [SetPredictions [o]; SetGroundTruths [o]; QueryIoU 0 0; SetIoUFunc (fun _ _ => 1#4)%Q; QueryIoU 0 0].
Lemma stale_cache :
  run unit (init unit (fun _ _ => 1#2)%Q) stale_ops = [Ok (1#2)%Q; Ok (1#2)%Q] /\
  run_uncached {| vpreds := None; vgts := None; viou := fun _ _ => (1#2)%Q; vaff := None |} stale_ops
    = [Ok (1#2)%Q; Ok (1#4)%Q].
Proof. split; vm_compute; reflexivity. Qed.
