From Coq Require Import String Ascii.
From Verif Require Import Base ResultLib SubmitModel SubmitSpec SubmitProofs ToolModel ToolSpec ToolProofs ObjsModel ObjsSpec.
Open Scope list_scope.
Open Scope Z_scope.

(** ** Lines *)
Lemma lines_cons c s : c <> newline -> s <> EmptyString -> read_lines s <> [] -> read_lines (String c s) = match read_lines s with [] => [] | x :: l => String c x :: l end.
Proof.
  intros C N R. cbn [read_lines]. destruct (Ascii.eqb_spec c newline); [contradiction|]. destruct s; [congruence|]. fold (read_lines (String a s)) in *. destruct (read_lines (String a s)); [congruence|reflexivity].
Qed.
Lemma lines_plain s : s <> EmptyString -> no_newline s -> read_lines s = [s].
Proof.
  induction s as [|c s IH]; intros N P; [congruence|]. destruct P as [C P]. destruct s as [|c' s].
  - cbn [read_lines]. destruct (Ascii.eqb_spec c newline); [contradiction|reflexivity].
  - specialize (IH ltac:(discriminate) P). rewrite lines_cons; [rewrite IH; reflexivity|exact C|discriminate|rewrite IH; discriminate].
Qed.
Lemma lines_first s t : no_newline s -> read_lines (s ++ String newline t) = (s ++ String newline EmptyString)%string :: read_lines t.
Proof.
  induction s as [|c s IH]; intros P; cbn [append]; [cbn [read_lines]; rewrite Ascii.eqb_refl; reflexivity|]. destruct P as [C P]. specialize (IH P).
  rewrite lines_cons; [rewrite IH; reflexivity|exact C| |rewrite IH; discriminate]. destruct s; discriminate.
Qed.
Theorem fields_round (l : list string) : Forall (fun f => f <> EmptyString /\ no_newline f) l ->
  length (read_lines (join_fields l)) = length l /\ (forall f, l = [f] -> read_lines (join_fields l) = [f]).
Proof.
  intros F. split; [|intros f ->; inversion F as [|? ? [N P] _]; subst; exact (lines_plain f N P)].
  induction l as [|f l IH]; [reflexivity|]. inversion F as [|? ? [N P] F']; subst. destruct l as [|g l].
  - change (join_fields [f]) with f. rewrite (lines_plain f N P). reflexivity.
  - change (join_fields (f :: g :: l)) with (f ++ String newline (join_fields (g :: l)))%string. rewrite lines_first by exact P. cbn [length]. f_equal. apply IH. exact F'.
Qed.

(** ** The camera *)
Lemma substring_all s : substring 0 (String.length s) s = s.
Proof. induction s as [|c s IH]; [reflexivity|]. cbn [String.length substring]. f_equal. exact IH. Qed.
Lemma substring_split s : forall n, (n <= String.length s)%nat -> s = (substring 0 n s ++ substring n (String.length s - n) s)%string.
Proof.
  induction s as [|c s IH]; intros n L; cbn [String.length] in *.
  - assert (n = 0%nat) by lia. subst n. reflexivity.
  - destruct n as [|n]; [cbn [Nat.sub substring append]; f_equal; symmetry; apply substring_all|]. cbn [substring append Nat.sub]. f_equal. apply IH. lia.
Qed.
Lemma ends_split s : ends_with s = true -> s = (without_suffix s ++ image_suffix)%string.
Proof.
  unfold ends_with, without_suffix. intros H. apply andb_true_iff in H as [L E]. apply Nat.leb_le in L. apply String.eqb_eq in E.
  rewrite (substring_split s (String.length s - 6)) at 1 by lia. replace (String.length s - (String.length s - 6))%nat with 6%nat by lia. rewrite E. reflexivity.
Qed.
Lemma parse_name s c : parse_camera s = Some c -> image_of (s ++ image_suffix) c.
Proof.
  unfold parse_camera, image_of.
  repeat match goal with |- context [String.eqb s ?x] => destruct (String.eqb_spec s x) as [->|]; [intros H; injection H as <-; reflexivity|] end. discriminate.
Qed.
Theorem camera_iff a c : camera_of a = Ok c <-> exists f, input_fields a = [f] /\ image_of f c.
Proof.
  unfold camera_of. split.
  - destruct (input_fields a) as [|f [|g l]]; try discriminate. destruct (ends_with f) eqn:E; [|discriminate]. destruct (parse_camera (without_suffix f)) as [c'|] eqn:P; [|discriminate].
    intros H. injection H as <-. exists f. split; [reflexivity|]. rewrite (ends_split f E). apply parse_name. exact P.
  - intros (f & -> & I). unfold image_of in I. subst f. destruct c; reflexivity.
Qed.
Lemma camera_err a e : camera_of a = Err e -> e = ValueError.
Proof. unfold camera_of. destruct (input_fields a) as [|f [|g l]]; try congruence. destruct (ends_with f); [|congruence]. destruct (parse_camera _); congruence. Qed.

(** ** The objects *)
Lemma skipped_iff o x y : ml o = Some x -> mw o = Some y -> (skipped o = false <-> usable o).
Proof.
  intros L W. unfold skipped, usable. rewrite L, W. cbn [value In]. rewrite !orb_false_iff.
  assert (N : forall v q, lessb v q = false <-> ~ below v q) by (intros v q; rewrite <- lessb_iff; destruct (lessb v q); split; congruence).
  rewrite !N. split.
  - intros [[[S A] C] D]. split; [exact S|]. intros v [E|[E|[E|[]]]]; try (injection E as <-; assumption). rewrite E in D. apply N. exact D.
  - intros [S H]. repeat split; [exact S|apply H; auto|apply H; auto|]. destruct (mh o) as [h|]; [|reflexivity]. apply N. apply H. auto.
Qed.
Lemma class_ok a i c : Forall (fun c => 0 <= c <= 4) (classes a) -> nth_error (classes a) i = Some c -> is_class c = true.
Proof. intros F E. rewrite Forall_forall in F. specialize (F c (nth_error_In _ _ E)). unfold is_class. apply andb_true_iff. rewrite !Z.leb_le. lia. Qed.
Lemma rows_ok (a : arrays) (ctx : string) (ts : Z) cam : well_formed a -> columns a = (match cam with None => 7 | Some _ => 4 end)%nat ->
  (forall c, cam = Some c -> camera_of a = Ok c) -> forall s, (forall i, In i s -> (i < rows a)%nat) ->
  exists all, mapM (make_object a ctx ts) s = Ok all /\ Forall2 (describes a ctx ts cam) s all.
Proof.
  intros (Lc & Ls & F) Col Cam. induction s as [|i s IH]; intros B; [exists []; split; [reflexivity|constructor]|].
  destruct (IH (fun j J => B j (or_intror J))) as (all & E & D). specialize (B i (or_introl eq_refl)). cbn [mapM].
  destruct (nth_error (scores a) i) as [sc|] eqn:Es; [|apply nth_error_None in Es; lia]. destruct (nth_error (classes a) i) as [c|] eqn:Ec; [|apply nth_error_None in Ec; lia].
  assert (X : exists o, make_object a ctx ts i = Ok o /\ describes a ctx ts cam i o).
  { unfold make_object. rewrite Es, Ec, (class_ok a i c F Ec), Col. cbn [negb]. destruct cam as [k|]; cbn [Nat.eqb].
    - rewrite (Cam k eq_refl). cbn [bind]. eexists. split; [reflexivity|]. repeat split; assumption.
    - eexists. split; [reflexivity|]. repeat split; assumption. }
  destruct X as (o & -> & Do). cbn [bind]. rewrite E. cbn [bind]. exists (o :: all). split; [reflexivity|constructor; assumption].
Qed.
Lemma filter_selects a ctx ts cam s all : Forall2 (describes a ctx ts cam) s all -> selects usable all (filter (fun o => negb (skipped o)) all).
Proof.
  intros H. assert (X : forall o, In o all -> exists x y, ml o = Some x /\ mw o = Some y).
  { intros o I. clear -H I. induction H as [|i o' s all D H IH]; [destruct I|]. destruct I as [->|I]; [|auto]. destruct D as (_ & _ & _ & _ & _ & D). destruct cam.
    - destruct D as (D & _). cbn [seq map] in D. injection D as _ _ D1 D2. eauto.
    - cbn [seq map] in D. injection D as _ _ _ D1 D2 _ _. eauto. }
  clear H. induction all as [|o all IH]; cbn [filter]; [constructor|]. destruct (X o (or_introl eq_refl)) as (x & y & L & W). specialize (IH (fun o' I => X o' (or_intror I))).
  destruct (skipped o) eqn:S0; cbn [negb].
  - constructor 3; [|exact IH]. intros U. apply (skipped_iff o x y L W) in U. congruence.
  - constructor 2; [|exact IH]. apply (skipped_iff o x y L W). exact S0.
Qed.
Theorem objects_made a ctx ts cam : well_formed a -> columns a = (match cam with None => 7 | Some _ => 4 end)%nat ->
  (forall c, cam = Some c -> exists f, input_fields a = [f] /\ image_of f c) ->
  exists all l, make_object_list a ctx ts = Ok l /\ Forall2 (describes a ctx ts cam) (seq 0 (rows a)) all /\ selects usable all l.
Proof.
  intros W Col Cam. destruct (rows_ok a ctx ts cam W Col (fun c E => proj2 (camera_iff a c) (Cam c E)) (seq 0 (rows a))) as (all & E & D); [intros i I; apply in_seq in I; lia|].
  exists all, (filter (fun o => negb (skipped o)) all). split; [|split; [exact D|exact (filter_selects _ _ _ _ _ _ D)]].
  unfold make_object_list. destruct W as (Lc & Ls & _). rewrite Lc, Ls, Nat.eqb_refl. cbn [negb]. rewrite E. reflexivity.
Qed.
Theorem camera_required a ctx ts : well_formed a -> columns a = 4%nat -> (0 < rows a)%nat ->
  (forall f c, input_fields a = [f] -> ~ image_of f c) -> make_object_list a ctx ts = Err ValueError.
Proof.
  intros (Lc & Ls & F) Col R N. unfold make_object_list. rewrite Lc, Ls, Nat.eqb_refl. cbn [negb]. destruct (rows a) as [|n]; [lia|]. cbn [seq mapM].
  destruct (nth_error (scores a) 0) as [sc|] eqn:Es; [|apply nth_error_None in Es; lia]. destruct (nth_error (classes a) 0) as [c|] eqn:Ec; [|apply nth_error_None in Ec; lia].
  unfold make_object at 1. rewrite Es, Ec, (class_ok a 0 c F Ec), Col. cbn [negb Nat.eqb]. destruct (camera_of a) as [k|e] eqn:E.
  - apply camera_iff in E as (f & Ef & I). destruct (N f k Ef I).
  - rewrite (camera_err a e E). reflexivity.
Qed.
Theorem other_columns a ctx ts : well_formed a -> columns a <> 7%nat -> columns a <> 4%nat -> make_object_list a ctx ts = Ok [].
Proof.
  intros (Lc & Ls & F) C7 C4. unfold make_object_list. rewrite Lc, Ls, Nat.eqb_refl. cbn [negb].
  assert (X : forall s, (forall i, In i s -> (i < rows a)%nat) -> exists all, mapM (make_object a ctx ts) s = Ok all /\ filter (fun o => negb (skipped o)) all = []).
  { induction s as [|i s IH]; intros B; [exists []; split; reflexivity|]. destruct (IH (fun j J => B j (or_intror J))) as (all & E & D). specialize (B i (or_introl eq_refl)). cbn [mapM].
    destruct (nth_error (scores a) i) as [sc|] eqn:Es; [|apply nth_error_None in Es; lia]. destruct (nth_error (classes a) i) as [c|] eqn:Ec; [|apply nth_error_None in Ec; lia].
    unfold make_object at 1. rewrite Es, Ec, (class_ok a i c F Ec). cbn [negb]. rewrite (proj2 (Nat.eqb_neq _ _) C7), (proj2 (Nat.eqb_neq _ _) C4). cbn [bind]. rewrite E. cbn [bind].
    eexists. split; [reflexivity|]. cbn [filter]. unfold skipped at 1. cbn [mscore ml mw mh value]. change (lessb (Num 0) min_extent) with true. rewrite !orb_true_r. cbn [orb negb]. exact D. }
  destruct (X (seq 0 (rows a))) as (all & -> & D); [intros i I; apply in_seq in I; lia|]. cbn [bind]. rewrite D. reflexivity.
Qed.

(** ** Against the submission tool *)
Theorem checks_agree o : ~ In NaN (box_numbers (SubmitModel.obox (as_submitted o))) ->
  (forall x, In (Some x) [ml o; mw o; mh o] -> ~ below x min_extent) -> (usable o <-> submitted (as_submitted o)).
Proof.
  intros N E. unfold usable, submitted. cbn [as_submitted SubmitModel.score]. tauto.
Qed.
Definition sample (len x : num) : made :=
  {| context_name := ""; timestamp := 0; mscore := Num (1 # 2); mtype := 1; mcamera := None; mx := Some x; my := Some (Num 0); mz := Some (Num 0);
     ml := Some len; mw := Some (Num 1); mh := Some (Num 1); mheading := Some (Num 0) |}.
Theorem checks_differ : (exists o, submitted (as_submitted o) /\ ~ usable o) /\ (exists o, usable o /\ ~ submitted (as_submitted o)).
Proof.
  split.
  - exists (sample (Num (1 # 200)) (Num 0)). split.
    + split; [intros (q & E & L); injection E as <-; revert L; apply Qle_not_lt; discriminate|]. cbn. intuition congruence.
    + intros [_ H]. apply (H (Num (1 # 200))); [left; reflexivity|]. exists (1 # 200). split; reflexivity.
  - exists (sample (Num 1) NaN). split.
    + split; [intros (q & E & L); injection E as <-; revert L; apply Qle_not_lt; discriminate|].
      intros x [E|[E|[E|[]]]]; injection E as <-; intros (q & E & L); injection E as <-; revert L; apply Qle_not_lt; discriminate.
    + intros [_ H]. apply H. left. reflexivity.
Qed.
