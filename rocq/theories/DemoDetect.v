(** Proofs about the other example submissions: 2D detections and the inputs of the two saved models. *)
From Coq Require Import Reals String List Lra Lia.
From Verif Require Import Base ResultLib DemoModel DemoSpec DemoProofs.
Import ListNotations.
Open Scope list_scope.
Open Scope R_scope.

Lemma translate_exact l c : wod_class l c <-> translate_label_to_wod l = c /\ (0 < c)%Z.
Proof.
  split; [destruct 1; split; reflexivity|]. intros [H P]. revert H. unfold translate_label_to_wod.
  repeat match goal with
  | |- context [match ?x with _ => _ end] => is_var x; destruct x
  end; intros <-; solve [constructor|lia].
Qed.
Lemma translate_unknown l : (forall c, ~ wod_class l c) <-> translate_label_to_wod l = (-1)%Z.
Proof.
  split.
  - intros H. pose proof (translate_exact l (translate_label_to_wod l)) as [_ T].
    destruct (Z_lt_le_dec 0 (translate_label_to_wod l)) as [P|N]; [destruct (H _ (T (conj eq_refl P)))|].
    clear H T. revert N. unfold translate_label_to_wod.
    repeat match goal with
    | |- context [match ?x with _ => _ end] => is_var x; destruct x
    end; intros N; solve [reflexivity|lia].
  - intros E c C. apply translate_exact in C. lia.
Qed.
Lemma known_picks ds r : picks (fun d => exists c, wod_class (d_label d) c) ds r <-> r = known ds.
Proof.
  apply picks_filter. intros d. rewrite Z.ltb_lt. split.
  - intros H. exists (translate_label_to_wod (d_label d)). apply translate_exact. now split.
  - intros [c C]. apply translate_exact in C. lia.
Qed.
Lemma picks_all {A} (P : A -> Prop) l r : picks P l r -> Forall P r.
Proof. induction 1; [constructor|now constructor|assumption]. Qed.
(** What the submissions report: the detections of known classes in order, with box, score and class lined up. *)
Lemma report_exact convert ds o : o = report convert ds <->
  exists kept, picks (fun d => exists c, wod_class (d_label d) c) ds kept /\
    Forall2 (fun d b => b = convert (d_corners d)) kept (boxes o) /\ Forall2 (fun d s => s = d_score d) kept (scores o) /\
    Forall2 (fun d c => wod_class (d_label d) c) kept (classes o).
Proof.
  assert (M : forall {B} (f : detection -> B) l r, Forall2 (fun d b => b = f d) l r <-> r = map f l).
  { intros B f. induction l as [|a l IH]; intros r; cbn [map].
    - split; [now inversion 1|intros ->; constructor].
    - split; [inversion 1 as [|? ? ? ? E F]; subst; f_equal; now apply IH|intros ->; constructor; [reflexivity|now apply IH]]. }
  assert (C : forall l r, Forall (fun d => exists c, wod_class (d_label d) c) l ->
    (Forall2 (fun d c => wod_class (d_label d) c) l r <-> r = map (fun d => translate_label_to_wod (d_label d)) l)).
  { induction l as [|a l IH]; intros r F; cbn [map].
    - split; [now inversion 1|intros ->; constructor].
    - inversion F as [|? ? [c Hc] F']; subst. split.
      + inversion 1 as [|? ? ? ? E G]; subst. apply translate_exact in E. f_equal; [symmetry; apply E|now apply IH].
      + intros ->. constructor; [|now apply IH]. apply translate_exact in Hc. apply translate_exact. split; [reflexivity|lia]. }
  split.
  - intros ->. exists (known ds). assert (K : picks (fun d => exists c, wod_class (d_label d) c) ds (known ds)) by now apply known_picks.
    split; [exact K|]. cbn [report boxes scores classes]. split; [now apply (M box2 (fun d => convert (d_corners d)))|].
    split; [now apply M|]. apply C; [exact (picks_all _ _ _ K)|reflexivity].
  - intros (kept & K & B & S & L). pose proof (picks_all _ _ _ K) as A. apply known_picks in K. subst kept.
    apply (M box2 (fun d => convert (d_corners d))) in B. apply M in S. apply C in L; [|exact A].
    destruct o as [b s c]. cbn [boxes scores classes] in *. now subst.
Qed.
Lemma report_lengths convert ds : let o := report convert ds in
  List.length (scores o) = List.length (boxes o) /\ List.length (classes o) = List.length (boxes o) /\ (List.length (boxes o) <= List.length ds)%nat.
Proof.
  cbn [report boxes scores classes]. rewrite !map_length. repeat split.
  unfold known. induction ds as [|d ds IH]; cbn [filter List.length]; [lia|]. destruct (_ <? _)%Z; cbn [List.length]; lia.
Qed.

(** The extents in pixels of the reported boxes. *)
Lemma tensorflow_extent rows cols c :
  left_of (tensorflow_box rows cols c) = xmin c * rows /\ right_of (tensorflow_box rows cols c) = xmax c * rows /\
  top_of (tensorflow_box rows cols c) = ymin c * cols /\ bottom_of (tensorflow_box rows cols c) = ymax c * cols.
Proof. unfold left_of, right_of, top_of, bottom_of, tensorflow_box. cbn [center_x center_y width height]. repeat split; field. Qed.
Lemma scaled_same a m n : a * m = a * n <-> m = n \/ a = 0.
Proof.
  split; [|intros [-> | ->]; lra]. intros H. destruct (Req_EM_T a 0) as [Z|Z]; [now right|left]. now apply Rmult_eq_reg_l in H.
Qed.
(** A column is scaled by the number of columns, and a row by the number of rows, only for square images and empty boxes. *)
Lemma tensorflow_pixels rows cols c :
  (left_of (tensorflow_box rows cols c) = xmin c * cols /\ right_of (tensorflow_box rows cols c) = xmax c * cols /\
   top_of (tensorflow_box rows cols c) = ymin c * rows /\ bottom_of (tensorflow_box rows cols c) = ymax c * rows) <->
  rows = cols \/ (xmin c = 0 /\ xmax c = 0 /\ ymin c = 0 /\ ymax c = 0).
Proof.
  destruct (tensorflow_extent rows cols c) as (-> & -> & -> & ->). rewrite !scaled_same.
  destruct (Req_EM_T rows cols) as [E|E]; [subst; tauto|]. assert (cols <> rows) by congruence. tauto.
Qed.
(** The front camera has 1280 rows and 1920 columns: a box at its right border is reported left of it. *)
Lemma tensorflow_refuted : exists c, 0 <= xmin c < xmax c /\ xmax c <= 1 /\ 0 <= ymin c < ymax c /\ ymax c <= 1 /\
  right_of (tensorflow_box 1280 1920 c) <> xmax c * 1920 /\ bottom_of (tensorflow_box 1280 1920 c) > 1280.
Proof.
  exists (Corners 0 0 1 1). destruct (tensorflow_extent 1280 1920 (Corners 0 0 1 1)) as (_ & -> & _ & ->).
  cbn [xmin xmax ymin ymax]. repeat split; lra.
Qed.
Lemma pytorch_extent c :
  left_of (pytorch_box c) = xmin c /\ right_of (pytorch_box c) = xmax c /\ top_of (pytorch_box c) = ymin c /\ bottom_of (pytorch_box c) = ymax c.
Proof. unfold left_of, right_of, top_of, bottom_of, pytorch_box. cbn [center_x center_y width height]. repeat split; field. Qed.
Lemma tensorflow_run rows cols ds o : run_tensorflow_2d rows cols ds = Ok o <-> ds <> [] /\ o = report (tensorflow_box rows cols) ds.
Proof. destruct ds as [|d ds]; cbn [run_tensorflow_2d]; split; try discriminate; [intros [H _]; congruence|intros [= <-]; now split|intros [_ ->]; reflexivity]. Qed.
(** Only the first detection is ever reported. *)
Lemma pytorch_run ds o : run_pytorch_2d ds = Ok o <-> exists d rest, ds = d :: rest /\ o = report pytorch_box [d].
Proof.
  destruct ds as [|d ds]; cbn [run_pytorch_2d]; split; try discriminate.
  - intros (d & rest & E & _). discriminate.
  - intros [= <-]. now exists d, ds.
  - intros (d' & rest & [= <- <-] & ->). reflexivity.
Qed.
Lemma pytorch_exact ds : (exists o, run_pytorch_2d ds = Ok o /\ o = report pytorch_box ds) <->
  exists d rest, ds = d :: rest /\ forall e c, In e rest -> ~ wod_class (d_label e) c.
Proof.
  split.
  - intros (o & H & E). apply pytorch_run in H as (d & rest & -> & ->). exists d, rest. split; [reflexivity|].
    intros e c He C. apply (f_equal (fun o => List.length (scores o))) in E. cbn [report scores] in E. rewrite !map_length in E.
    unfold known in E. cbn [filter] in E.
    assert (L : (0 < List.length (filter (fun d => (0 <? translate_label_to_wod (d_label d))%Z) rest))%nat).
    { assert (I : In e (filter (fun d => (0 <? translate_label_to_wod (d_label d))%Z) rest)).
      { apply filter_In. split; [exact He|]. apply translate_exact in C as [T P]. apply Z.ltb_lt. rewrite T. exact P. }
      destruct (filter _ rest); [destruct I|cbn [List.length]; lia]. }
    destruct (0 <? translate_label_to_wod (d_label d))%Z; cbn [List.length] in E; lia.
  - intros (d & rest & -> & H). eexists. split; [reflexivity|]. unfold report, known.
    assert (E : filter (fun d => (0 <? translate_label_to_wod (d_label d))%Z) rest = []).
    { clear d. induction rest as [|e rest IH]; [reflexivity|]. cbn [filter]. rewrite IH by (intros f c Hf; apply H; now right).
      assert (T : translate_label_to_wod (d_label e) = (-1)%Z) by (apply translate_unknown; intros c; apply H; now left).
      now rewrite T. }
    cbn [filter]. rewrite E. reflexivity.
Qed.
Lemma pytorch_refuted : exists ds d o, In d ds /\ wod_class (d_label d) 1 /\ run_pytorch_2d ds = Ok o /\ ~ In (d_score d) (scores o).
Proof.
  exists [Detection (Corners 0 0 1 1) (1/2) 3; Detection (Corners 2 2 3 3) (1/4) 3], (Detection (Corners 2 2 3 3) (1/4) 3),
    (report pytorch_box [Detection (Corners 0 0 1 1) (1/2) 3]).
  split; [right; now left|]. split; [constructor|]. split; [reflexivity|]. cbn. intros [H|[]]. lra.
Qed.

(** * The inputs of the saved models *)
Lemma mapM_clouds k fs : forall r, mapM (fun field => do ri <- image_of k field; Ok (returns ri)) fs = Ok r <->
  exists ris, Forall2 (fun ri f => holds (Image ri) f k) ris fs /\ Forall2 visible ris r.
Proof.
  induction fs as [|f fs IH]; intros r; cbn [mapM].
  - split.
    + intros [= <-]. exists []. split; constructor.
    + intros (ris & H & V). inversion H; subst. inversion V; subst. reflexivity.
  - destruct (image_of k f) as [ri|e] eqn:E; cbn [bind].
    + destruct (mapM _ fs) as [bs|e'] eqn:F; cbn [bind].
      * split.
        -- intros [= <-]. destruct (proj1 (IH bs) eq_refl) as (ris & H & V). exists (ri :: ris).
           split; constructor; try assumption; [now apply image_of_ok|now apply visible_returns].
        -- intros (ris & H & V). inversion H as [|r0 ? ris' ? H0 H1]; subst. inversion V as [|? v0 ? vs V0 V1]; subst.
           apply image_of_ok in H0. rewrite E in H0. injection H0 as <-. apply visible_returns in V0. subst v0.
           assert (G : Ok bs = Ok vs) by (apply IH; now exists ris'). injection G as <-. reflexivity.
      * split; [discriminate|]. intros (ris & H & V). inversion H as [|r0 ? ris' ? H0 H1]; subst. inversion V as [|? v0 ? vs V0 V1]; subst.
        assert (G : Err e' = Ok vs) by (apply IH; now exists ris'). discriminate.
    + split; [discriminate|]. intros (ris & H & V). inversion H as [|r0 ? ris' ? H0 H1]; subst. apply image_of_ok in H0. congruence.
Qed.
(** The features are those of the visible pixels of the five lidars, in order. *)
Lemma process_exact k fs : process_inputs k = Ok fs <-> exists ris vs, Forall2 (fun ri f => holds (Image ri) f k) ris lidar_fields /\
  Forall2 visible ris vs /\
  Forall2 (fun p f => f_position f = position p /\ f_elongation f = elongation p /\ f_intensity f = tanh (intensity p)) (concat vs) fs.
Proof.
  assert (M : forall l r, Forall2 (fun p f => f_position f = position p /\ f_elongation f = elongation p /\ f_intensity f = tanh (intensity p)) l r <->
    r = map feature_of l).
  { induction l as [|a l IH]; intros r; cbn [map].
    - split; [now inversion 1|intros ->; constructor].
    - split.
      + inversion 1 as [|? [fp fi fe] ? ? (E1 & E2 & E3) F]; subst. cbn in E1, E2, E3. subst. f_equal. now apply IH.
      + intros ->. constructor; [now repeat split|now apply IH]. }
  unfold process_inputs. destruct (mapM _ lidar_fields) as [cs|e] eqn:E; cbn [bind].
  - split.
    + intros [= <-]. apply mapM_clouds in E as (ris & H & V). exists ris, cs. split; [exact H|]. split; [exact V|]. now apply M.
    + intros (ris & vs & H & V & F). apply M in F. subst fs.
      assert (G : Ok cs = Ok vs) by (rewrite <- E; apply mapM_clouds; now exists ris). now injection G as <-.
  - split; [discriminate|]. intros (ris & vs & H & V & F).
    assert (G : Err e = Ok vs) by (rewrite <- E; apply mapM_clouds; now exists ris). discriminate.
Qed.
(** Intensities are squashed into the open interval from -1 to 1, keeping their order. *)
Lemma features_squashed p q : -1 < f_intensity (feature_of p) < 1 /\ (f_intensity (feature_of p) < f_intensity (feature_of q) <-> intensity p < intensity q).
Proof.
  cbn [feature_of f_intensity]. split; [apply tanh_range|]. split; [|apply tanh_increasing].
  intros H. destruct (Rtotal_order (intensity p) (intensity q)) as [L|[L|L]]; [exact L| |].
  - rewrite L in H. lra.
  - apply tanh_increasing in L. lra.
Qed.
(** The two images for the saved model: the pixel at a place comes from the pixel at that place. *)
Lemma saved_pixels ri i j row p : nth_error ri i = Some row -> nth_error row j = Some p ->
  exists n c, nth_error (fst (saved_model_inputs ri)) i = Some n /\ nth_error (snd (saved_model_inputs ri)) i = Some c /\
    nth_error c j = Some (position p) /\
    exists v, nth_error n j = Some v /\ vx v = range p / 75 /\ vy v = tanh (intensity p) /\ vz v = elongation p / (3 / 2).
Proof.
  intros Hr Hp. exists (map normalized row), (map position row). cbn [saved_model_inputs fst snd].
  split; [now apply map_nth_error|]. split; [now apply map_nth_error|]. split; [now apply map_nth_error|].
  exists (normalized p). split; [now apply map_nth_error|]. unfold normalized. cbn [vx vy vz]. repeat split; field.
Qed.
Lemma predict_needs_model {O} (m : option (list (list vec) * list (list vec) -> O)) ri :
  (exists o, predict m ri = Ok o) <-> m <> None.
Proof. destruct m; cbn [predict]; split; try congruence; [now exists (o (saved_model_inputs ri))|intros [o H]; discriminate]. Qed.
