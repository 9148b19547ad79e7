(** Objects grouped by frame and by sequence, and the alignment of frames. *)
From Coq Require Import String Sorting.Sorted Sorting.Permutation.
From Verif Require Import Base ResultLib MonadLib ListLib ParseModel ParseSpec ParseMapProofs.
Open Scope list_scope.
Open Scope Z_scope.

Lemma read1 {A} (t : tensor A) n i : dims t = [n] -> (i < n)%nat -> read t [i] = Ok (elem t [i]).
Proof. intros D H. unfold read. rewrite D. cbn [List.length Nat.eqb negb inside]. apply Nat.ltb_lt in H. rewrite H. reflexivity. Qed.
Lemma read2 {A} (t : tensor A) n c i j : dims t = [n; c] -> (i < n)%nat -> (j < c)%nat ->
  read t [i; j] = Ok (elem t [i; j]).
Proof.
  intros D H G. unfold read. rewrite D. cbn [List.length Nat.eqb negb inside].
  apply Nat.ltb_lt in H, G. rewrite H, G. reflexivity.
Qed.
Lemma read2_inv {A} (t : tensor A) n c i j a : dims t = [n; c] -> read t [i; j] = Ok a -> (j < c)%nat.
Proof.
  intros D. unfold read. rewrite D. cbn [List.length Nat.eqb negb inside].
  destruct (i <? n)%nat; cbn [andb]; [|discriminate].
  destruct (j <? c)%nat eqn:E; [|discriminate]. intros _. apply Nat.ltb_lt. exact E.
Qed.

Lemma box_ok t n dof i : dims t = [n; dof] -> (i < n)%nat -> boxes_known dof ->
  get_box_by_dimension t i = Ok (expected_box t dof i).
Proof.
  intros D H B. unfold get_box_by_dimension, dim_size, expected_box. rewrite D. cbn [nth_error bind].
  destruct B as [->|[->| ->]]; rewrite !(read2 t n _ i _ D H) by lia; reflexivity.
Qed.
Lemma box_inv t n dof i b : dims t = [n; dof] -> get_box_by_dimension t i = Ok b -> boxes_known dof.
Proof.
  intros D. unfold get_box_by_dimension, dim_size, boxes_known. rewrite D. cbn [nth_error bind].
  destruct dof as [|[|[|[|[|[|[|[|dof]]]]]]]]; intros E; try discriminate; lia.
Qed.

Lemma optM_read1 {A} (o : option (tensor A)) n i : (forall t, o = Some t -> dims t = [n]) -> (i < n)%nat ->
  optM (fun t => read t [i]) o = Ok (option_map (fun t => elem t [i]) o).
Proof.
  intros D H. destruct o as [t|]; [|reflexivity]. cbn [optM option_map].
  rewrite (read1 t n i (D t eq_refl) H). reflexivity.
Qed.

Lemma object_ok inp n dof i : sized inp n dof -> (i < n)%nat ->
  parse_object inp i = Ok (expected_object inp dof i).
Proof.
  intros (D1 & D2 & D3 & D4 & D5 & D6 & D7 & D8 & D9) H. unfold parse_object, expected_object.
  rewrite (read1 _ n i D2 H), (optM_read1 _ n i D4 H), (optM_read1 _ n i D5 H), (optM_read1 _ n i D6 H),
    (optM_read1 _ n i D7 H). cbn [bind].
  rewrite (box_ok _ n dof i D1 H) by (apply D9; lia). cbn [bind].
  destruct (object_speed inp) as [t|]; [|reflexivity]. cbn [optM option_map].
  destruct (D8 t eq_refl) as (c & Dc & Hc).
  rewrite !(read2 t n c i _ Dc H) by lia. reflexivity.
Qed.
Lemma object_inv inp n dof i o : dims (bbox inp) = [n; dof] ->
  (forall t, object_speed inp = Some t -> exists c, dims t = [n; c]) ->
  parse_object inp i = Ok o ->
  boxes_known dof /\ (forall t c, object_speed inp = Some t -> dims t = [n; c] -> (2 <= c)%nat).
Proof.
  intros D S E. unfold parse_object in E.
  dbind E a E1. dbind E b E2. dbind E bx E3. dbind E x E4. dbind E y E5. dbind E z E6. dbind E w E7.
  split; [exact (box_inv _ _ _ _ _ D E3)|].
  intros t c T Dc. rewrite T in E7. cbn [optM] in E7. dbind E7 v E8. dbind E8 v0 E9. dbind E8 v1 E10.
  pose proof (read2_inv _ _ _ _ _ _ Dc E10). lia.
Qed.

Lemma check_dim_ok {A} (t : tensor A) k n : nth_error (dims t) k = Some n -> check_dim t k n = Ok tt.
Proof.
  intros H. unfold check_dim, dim_size, check. rewrite H. cbn [bind]. rewrite Nat.eqb_refl. reflexivity.
Qed.
Lemma check_dim_inv {A} (t : tensor A) k n u : check_dim t k n = Ok u -> nth_error (dims t) k = Some n.
Proof.
  unfold check_dim, dim_size, check. destruct (nth_error (dims t) k) as [d|]; cbn [bind]; [|discriminate].
  destruct (Nat.eqb d n) eqn:E; [|discriminate]. intros _. apply Nat.eqb_eq in E. congruence.
Qed.
Lemma rank1_dims {A} (t : tensor A) n : rank t 1 -> nth_error (dims t) 0 = Some n -> dims t = [n].
Proof.
  unfold rank. destruct (dims t) as [|a [|b l]]; cbn; try discriminate. congruence.
Qed.
Lemma rank2_dims {A} (t : tensor A) n : rank t 2 -> nth_error (dims t) 0 = Some n -> exists c, dims t = [n; c].
Proof.
  unfold rank. destruct (dims t) as [|a [|b [|c l]]]; cbn; try discriminate.
  intros _ E. exists b. congruence.
Qed.
Lemma check_opt_ok {A} (o : option (tensor A)) n :
  (forall t, o = Some t -> nth_error (dims t) 0 = Some n) -> check_opt o n = Ok tt.
Proof. intros H. destruct o as [t|]; [|reflexivity]. exact (check_dim_ok _ _ _ (H t eq_refl)). Qed.
Lemma check_opt_inv {A} (o : option (tensor A)) n u : check_opt o n = Ok u ->
  forall t, o = Some t -> nth_error (dims t) 0 = Some n.
Proof. intros H t ->. exact (check_dim_inv _ _ _ _ H). Qed.

Lemma optional_ok inp n dof : sized inp n dof -> check_optional inp n = Ok tt.
Proof.
  intros (D1 & D2 & D3 & D4 & D5 & D6 & D7 & D8 & D9). unfold check_optional.
  rewrite (check_opt_ok (score inp)) by (intros t T; rewrite (D4 t T); reflexivity).
  rewrite (check_opt_ok (overlap_nlz inp)) by (intros t T; rewrite (D5 t T); reflexivity).
  rewrite (check_opt_ok (detection_difficulty inp)) by (intros t T; rewrite (D6 t T); reflexivity).
  rewrite (check_opt_ok (tracking_difficulty inp)) by (intros t T; rewrite (D7 t T); reflexivity).
  cbn [bind]. apply check_opt_ok. intros t T. destruct (D8 t T) as (c & -> & _). reflexivity.
Qed.

(** What the leading checks establish. *)
Definition rows (inp : inputs) (n dof : nat) : Prop :=
  dims (bbox inp) = [n; dof] /\ dims (type inp) = [n] /\ dims (frame_id inp) = [n]
  /\ (forall t, score inp = Some t -> dims t = [n])
  /\ (forall t, overlap_nlz inp = Some t -> dims t = [n])
  /\ (forall t, detection_difficulty inp = Some t -> dims t = [n])
  /\ (forall t, tracking_difficulty inp = Some t -> dims t = [n])
  /\ (forall t, object_speed inp = Some t -> exists c, dims t = [n; c]).
Lemma checks_inv inp n u u1 u2 : ranked inp -> dim_size (bbox inp) 0 = Ok n ->
  check_dim (type inp) 0 n = Ok u1 -> check_dim (frame_id inp) 0 n = Ok u2 -> check_optional inp n = Ok u ->
  exists dof, rows inp n dof.
Proof.
  intros (R1 & R2 & R3 & R4 & R5 & R6 & R7 & R8) E E1 E2 E3. unfold check_optional in E3.
  dbind E3 v1 C1. dbind E3 v2 C2. dbind E3 v3 C3. dbind E3 v4 C4.
  unfold dim_size in E. destruct (nth_error (dims (bbox inp)) 0) as [d|] eqn:D; [|discriminate].
  apply Ok_inj in E. subst d.
  destruct (rank2_dims _ _ R1 D) as (dof & D1). exists dof.
  repeat split.
  - exact D1.
  - exact (rank1_dims _ _ R2 (check_dim_inv _ _ _ _ E1)).
  - exact (rank1_dims _ _ R3 (check_dim_inv _ _ _ _ E2)).
  - intros t T. exact (rank1_dims _ _ (R4 t T) (check_opt_inv _ _ _ C1 t T)).
  - intros t T. exact (rank1_dims _ _ (R5 t T) (check_opt_inv _ _ _ C2 t T)).
  - intros t T. exact (rank1_dims _ _ (R6 t T) (check_opt_inv _ _ _ C3 t T)).
  - intros t T. exact (rank1_dims _ _ (R7 t T) (check_opt_inv _ _ _ C4 t T)).
  - intros t T. exact (rank2_dims _ _ (R8 t T) (check_opt_inv _ _ _ E3 t T)).
Qed.
Lemma rows_sized inp n dof : rows inp n dof ->
  (n <> 0%nat -> exists o, parse_object inp 0 = Ok o) -> sized inp n dof.
Proof.
  intros (D1 & D2 & D3 & D4 & D5 & D6 & D7 & D8) H.
  assert (X : n <> 0%nat -> boxes_known dof
              /\ (forall t c, object_speed inp = Some t -> dims t = [n; c] -> (2 <= c)%nat)).
  { intros N. destruct (H N) as (o & E). exact (object_inv _ _ _ _ _ D1 D8 E). }
  split; [exact D1|]. split; [exact D2|]. split; [exact D3|]. split; [exact D4|]. split; [exact D5|].
  split; [exact D6|]. split; [exact D7|]. split.
  - intros t T. destruct (D8 t T) as (c & Dc). exists c. split; [exact Dc|]. intros N.
    exact (proj2 (X N) t c T Dc).
  - intros N. exact (proj1 (X N)).
Qed.

Lemma foldM_fold {A S} (f : S -> A -> result S) (g : S -> A -> S) l : forall s,
  (forall x s, In x l -> f s x = Ok (g s x)) -> foldM f l s = Ok (fold_left g l s).
Proof.
  induction l as [|x l IH]; intros s H; [reflexivity|]. cbn [foldM fold_left].
  rewrite (H x s (or_introl eq_refl)). cbn [bind]. apply IH. intros y s' Hy. apply H. right. exact Hy.
Qed.

Lemma parse_objects_value inp n dof : sized inp n dof ->
  parse_objects inp
  = Ok (grouped Z.eqb [] (fun i => elem (frame_id inp) [i]) (fun i => push (expected_object inp dof i))
          (seq 0 n) []).
Proof.
  intros S. pose proof S as (D1 & D2 & D3 & _). unfold parse_objects, dim_size. rewrite D1. cbn [nth_error bind].
  rewrite (check_dim_ok (type inp)) by (rewrite D2; reflexivity).
  rewrite (check_dim_ok (frame_id inp)) by (rewrite D3; reflexivity).
  rewrite (optional_ok _ _ _ S). cbn [bind]. unfold grouped. apply foldM_fold.
  intros i m I. apply in_seq in I. rewrite (object_ok _ _ _ i S) by lia. cbn [bind].
  rewrite (read1 _ n i D3) by lia. reflexivity.
Qed.

Lemma parse_objects_succeeds inp : ranked inp ->
  ((exists m, parse_objects inp = Ok m) <-> exists n dof, sized inp n dof).
Proof.
  intros R. split.
  - intros (m & E). unfold parse_objects in E. dbind E n E0. dbind E u1 E1. dbind E u2 E2. dbind E u3 E3.
    destruct (checks_inv _ _ _ _ _ R E0 E1 E2 E3) as (dof & W). exists n, dof.
    apply (rows_sized _ _ _ W). intros N. destruct n as [|n]; [contradiction|].
    cbn [seq foldM] in E. dbind E m1 E4. dbind E4 o E5. exists o. exact E5.
  - intros (n & dof & S). eexists. exact (parse_objects_value _ _ _ S).
Qed.

Lemma parse_objects_content inp n dof m : sized inp n dof -> parse_objects inp = Ok m ->
  NoDup (map fst m)
  /\ (forall f l, holds m f l <-> l <> [] /\ l = map (expected_object inp dof) (rows_of_frame inp n f))
  /\ Permutation (List.concat (map snd m)) (map (expected_object inp dof) (seq 0 n)).
Proof.
  intros S E. rewrite (parse_objects_value _ _ _ S) in E. apply Ok_inj in E. subst m. split; [|split].
  - apply grouped_nodup; [exact eq_test_Z|constructor].
  - intros f l. unfold holds. rewrite (grouped_push_in _ _ _ _ eq_test_Z). reflexivity.
  - rewrite grouped_concat. cbn. rewrite app_nil_r. reflexivity.
Qed.

(** Sequences. *)
Lemma parse_sequences_value inp sid oid n dof : sized inp n dof -> dims sid = [n] -> dims oid = [n] ->
  parse_sequences inp sid oid
  = Ok (grouped String.eqb [] (fun i => elem sid [i])
          (fun i => update Z.eqb [] (elem (frame_id inp) [i])
                      (push (identified (elem oid [i]) (expected_object inp dof i)))) (seq 0 n) []).
Proof.
  intros S Ds Do. pose proof S as (D1 & D2 & D3 & _).
  unfold parse_sequences, dim_size. rewrite D1. cbn [nth_error bind].
  rewrite (check_dim_ok (type inp)) by (rewrite D2; reflexivity).
  rewrite (check_dim_ok (frame_id inp)) by (rewrite D3; reflexivity).
  rewrite (check_dim_ok sid) by (rewrite Ds; reflexivity).
  rewrite (check_dim_ok oid) by (rewrite Do; reflexivity).
  rewrite (optional_ok _ _ _ S). cbn [bind]. unfold grouped. apply foldM_fold.
  intros i m I. apply in_seq in I. rewrite (object_ok _ _ _ i S) by lia. cbn [bind].
  rewrite (read1 oid n i Do), (read1 _ n i D3), (read1 sid n i Ds) by lia. reflexivity.
Qed.

Lemma parse_sequences_succeeds inp sid oid : ranked inp -> rank sid 1 -> rank oid 1 ->
  ((exists m, parse_sequences inp sid oid = Ok m)
   <-> exists n dof, sized inp n dof /\ dims sid = [n] /\ dims oid = [n]).
Proof.
  intros R Rs Ro. split.
  - intros (m & E). unfold parse_sequences in E. dbind E n E0. dbind E u1 E1. dbind E u2 E2.
    dbind E u4 E4. dbind E u5 E5. dbind E u3 E3.
    destruct (checks_inv _ _ _ _ _ R E0 E1 E2 E3) as (dof & W). exists n, dof.
    split; [|split].
    + apply (rows_sized _ _ _ W). intros N. destruct n as [|n]; [contradiction|].
      cbn [seq foldM] in E. dbind E m1 E6. dbind E6 o E7. exists o. exact E7.
    + exact (rank1_dims _ _ Rs (check_dim_inv _ _ _ _ E4)).
    + exact (rank1_dims _ _ Ro (check_dim_inv _ _ _ _ E5)).
  - intros (n & dof & S & Ds & Do). eexists. exact (parse_sequences_value _ _ _ _ _ S Ds Do).
Qed.

Lemma filter_filter {A} (f g : A -> bool) l : filter f (filter g l) = filter (fun x => g x && f x) l.
Proof.
  induction l as [|x l IH]; [reflexivity|]. cbn [filter]. destruct (g x); cbn [filter andb]; rewrite IH; reflexivity.
Qed.

Definition sequence_get inp sid oid n dof s :=
  grouped Z.eqb [] (fun i => elem (frame_id inp) [i])
    (fun i => push (identified (elem oid [i]) (expected_object inp dof i)))
    (filter (fun i => String.eqb (elem sid [i]) s) (seq 0 n)) [].

Lemma parse_sequences_get inp sid oid n dof m s : sized inp n dof -> dims sid = [n] -> dims oid = [n] ->
  parse_sequences inp sid oid = Ok m -> get String.eqb [] s m = sequence_get inp sid oid n dof s.
Proof.
  intros S Ds Do E. rewrite (parse_sequences_value _ _ _ _ _ S Ds Do) in E. apply Ok_inj in E. subst m.
  rewrite (grouped_get _ _ _ _ _ eq_test_string). reflexivity.
Qed.
Lemma sequence_get_in inp sid oid n dof s f l :
  In (f, l) (sequence_get inp sid oid n dof s)
  <-> l <> [] /\ l = map (fun i => identified (elem oid [i]) (expected_object inp dof i))
                       (rows_of_sequence inp sid n s f).
Proof.
  unfold sequence_get. rewrite (grouped_push_in _ _ _ _ eq_test_Z). rewrite filter_filter. reflexivity.
Qed.

Lemma parse_sequences_content inp sid oid n dof m : sized inp n dof -> dims sid = [n] -> dims oid = [n] ->
  parse_sequences inp sid oid = Ok m ->
  NoDup (map fst m)
  /\ (forall s, In s (map fst m) <-> exists i, (i < n)%nat /\ elem sid [i] = s)
  /\ (forall s fs, holds m s fs ->
        NoDup (map fst fs)
        /\ forall f l, holds fs f l
           <-> l <> [] /\ l = map (fun i => identified (elem oid [i]) (expected_object inp dof i))
                                (rows_of_sequence inp sid n s f))
  /\ Permutation (List.concat (map snd (List.concat (map snd m))))
       (map (fun i => identified (elem oid [i]) (expected_object inp dof i)) (seq 0 n)).
Proof.
  intros S Ds Do E. pose proof (parse_sequences_get inp sid oid n dof m) as G.
  pose proof E as E'. rewrite (parse_sequences_value _ _ _ _ _ S Ds Do) in E'. apply Ok_inj in E'.
  assert (N : NoDup (map fst m)).
  { subst m. apply grouped_nodup; [exact eq_test_string|constructor]. }
  split; [exact N|]. split; [|split].
  - intros s. subst m. rewrite (grouped_keys _ _ _ _ _ eq_test_string). cbn [map]. split.
    + intros [[]|(i & I & F)]. exists i. apply in_seq in I. split; [lia|exact F].
    + intros (i & I & F). right. exists i. split; [apply in_seq; lia|exact F].
  - intros s fs H. pose proof (get_unique _ [] _ eq_test_string _ _ N H) as U.
    rewrite (G s S Ds Do E) in U. subst fs. split.
    + apply grouped_nodup; [exact eq_test_Z|constructor].
    + intros f l. apply sequence_get_in.
  - subst m. rewrite grouped_concat2. cbn. rewrite app_nil_r. reflexivity.
Qed.

(** Alignment. *)
Lemma objects_get inp n dof m f : sized inp n dof -> parse_objects inp = Ok m ->
  get Z.eqb [] f m = map (expected_object inp dof) (rows_of_frame inp n f).
Proof.
  intros S E. rewrite (parse_objects_value _ _ _ S) in E. apply Ok_inj in E. subst m.
  rewrite (grouped_get _ _ _ _ _ eq_test_Z). exact (fold_push _ _ []).
Qed.
Lemma objects_keys inp n dof m f : sized inp n dof -> parse_objects inp = Ok m ->
  (In f (map fst m) <-> exists i, (i < n)%nat /\ elem (frame_id inp) [i] = f).
Proof.
  intros S E. rewrite (parse_objects_value _ _ _ S) in E. apply Ok_inj in E. subst m.
  rewrite (grouped_keys _ _ _ _ _ eq_test_Z). cbn [map]. split.
  + intros [[]|(i & I & F)]. exists i. apply in_seq in I. split; [lia|exact F].
  + intros (i & I & F). right. exists i. split; [apply in_seq; lia|exact F].
Qed.

Lemma aligned_frames pd gt np dp ng dg pm gm :
  sized pd np dp -> sized gt ng dg -> parse_objects pd = Ok pm -> parse_objects gt = Ok gm ->
  exists ids, StronglySorted Z.lt ids
    /\ (forall f, In f ids <-> (exists i, (i < np)%nat /\ elem (frame_id pd) [i] = f)
                            \/ (exists i, (i < ng)%nat /\ elem (frame_id gt) [i] = f))
    /\ align_frames pm gm
       = map (fun f => (map (expected_object pd dp) (rows_of_frame pd np f),
                        map (expected_object gt dg) (rows_of_frame gt ng f))) ids.
Proof.
  intros S1 S2 E1 E2. destruct (key_set_spec Z.compare pm gm order_Z) as [A B].
  exists (key_set Z.compare pm gm). split; [exact A|]. split.
  - intros f. rewrite B, (objects_keys _ _ _ _ _ S1 E1), (objects_keys _ _ _ _ _ S2 E2). reflexivity.
  - unfold align_frames. apply map_ext. intros f.
    rewrite (objects_get _ _ _ _ _ S1 E1), (objects_get _ _ _ _ _ S2 E2). reflexivity.
Qed.
Lemma detection_frames_spec pd gt np dp ng dg pm gm :
  sized pd np dp -> sized gt ng dg -> parse_objects pd = Ok pm -> parse_objects gt = Ok gm ->
  (np = 0%nat /\ ng = 0%nat /\ detection_frames pm gm = [([], [])])
  \/ ((np <> 0%nat \/ ng <> 0%nat)
      /\ exists ids, StronglySorted Z.lt ids
         /\ (forall f, In f ids <-> (exists i, (i < np)%nat /\ elem (frame_id pd) [i] = f)
                                 \/ (exists i, (i < ng)%nat /\ elem (frame_id gt) [i] = f))
         /\ detection_frames pm gm
            = map (fun f => (map (expected_object pd dp) (rows_of_frame pd np f),
                             map (expected_object gt dg) (rows_of_frame gt ng f))) ids).
Proof.
  intros S1 S2 E1 E2. destruct (aligned_frames _ _ _ _ _ _ _ _ S1 S2 E1 E2) as (ids & A & B & C).
  destruct (Nat.eq_dec np 0) as [Np|Np]; [destruct (Nat.eq_dec ng 0) as [Ng|Ng]|].
  - left. split; [exact Np|]. split; [exact Ng|]. unfold detection_frames. rewrite C.
    destruct ids as [|f ids]; [reflexivity|]. exfalso.
    destruct (proj1 (B f) (or_introl eq_refl)) as [(i & H & _)|(i & H & _)]; lia.
  - right. split; [right; exact Ng|]. exists ids. split; [exact A|]. split; [exact B|].
    unfold detection_frames. rewrite C. destruct ids as [|f ids]; [|reflexivity]. exfalso.
    apply (proj2 (B (elem (frame_id gt) [0%nat]))). right. exists 0%nat. split; [lia|reflexivity].
  - right. split; [left; exact Np|]. exists ids. split; [exact A|]. split; [exact B|].
    unfold detection_frames. rewrite C. destruct ids as [|f ids]; [|reflexivity]. exfalso.
    apply (proj2 (B (elem (frame_id pd) [0%nat]))). left. exists 0%nat. split; [lia|reflexivity].
Qed.

Lemma sequence_get_keys inp sid oid n dof s f :
  In f (map fst (sequence_get inp sid oid n dof s))
  <-> exists i, (i < n)%nat /\ elem sid [i] = s /\ elem (frame_id inp) [i] = f.
Proof.
  unfold sequence_get. rewrite (grouped_keys _ _ _ _ _ eq_test_Z). cbn [map]. split.
  - intros [[]|(i & I & F)]. apply filter_In in I. destruct I as [I J]. apply in_seq in I.
    apply String.eqb_eq in J. exists i. split; [lia|]. split; assumption.
  - intros (i & I & J & F). right. exists i. split; [|exact F]. apply filter_In.
    split; [apply in_seq; lia|]. apply String.eqb_eq. exact J.
Qed.
Lemma sequence_get_get inp sid oid n dof s f :
  get Z.eqb [] f (sequence_get inp sid oid n dof s)
  = map (fun i => identified (elem oid [i]) (expected_object inp dof i)) (rows_of_sequence inp sid n s f).
Proof.
  unfold sequence_get. rewrite (grouped_get _ _ _ _ _ eq_test_Z), filter_filter. exact (fold_push _ _ []).
Qed.

Lemma tracking_sequences_spec pd ps po gt gs go np dp ng dg pm gm :
  sized pd np dp -> dims ps = [np] -> dims po = [np] ->
  sized gt ng dg -> dims gs = [ng] -> dims go = [ng] ->
  parse_sequences pd ps po = Ok pm -> parse_sequences gt gs go = Ok gm ->
  exists names, StronglySorted (fun a b => String.compare a b = Lt) names
    /\ (forall s, In s names <-> (exists i, (i < np)%nat /\ elem ps [i] = s)
                              \/ (exists i, (i < ng)%nat /\ elem gs [i] = s))
    /\ Forall2 (fun s frames =>
         exists ids, StronglySorted Z.lt ids
         /\ (forall f, In f ids <-> (exists i, (i < np)%nat /\ elem ps [i] = s /\ elem (frame_id pd) [i] = f)
                                 \/ (exists i, (i < ng)%nat /\ elem gs [i] = s /\ elem (frame_id gt) [i] = f))
         /\ frames = map (fun f =>
              (map (fun i => identified (elem po [i]) (expected_object pd dp i)) (rows_of_sequence pd ps np s f),
               map (fun i => identified (elem go [i]) (expected_object gt dg i)) (rows_of_sequence gt gs ng s f)))
              ids)
       names (tracking_sequences pm gm).
Proof.
  intros S1 Dps Dpo S2 Dgs Dgo E1 E2.
  destruct (key_set_spec String.compare pm gm order_string) as [A B].
  exists (key_set String.compare pm gm). split; [exact A|]. split.
  - intros s. rewrite B.
    rewrite (proj1 (proj2 (parse_sequences_content _ _ _ _ _ _ S1 Dps Dpo E1)) s).
    rewrite (proj1 (proj2 (parse_sequences_content _ _ _ _ _ _ S2 Dgs Dgo E2)) s). reflexivity.
  - unfold tracking_sequences. generalize (key_set String.compare pm gm). intros names.
    induction names as [|s names IH]; cbn [map]; constructor; [|exact IH].
    rewrite (parse_sequences_get _ _ _ _ _ _ s S1 Dps Dpo E1), (parse_sequences_get _ _ _ _ _ _ s S2 Dgs Dgo E2).
    destruct (key_set_spec Z.compare (sequence_get pd ps po np dp s) (sequence_get gt gs go ng dg s) order_Z)
      as [A' B'].
    exists (key_set Z.compare (sequence_get pd ps po np dp s) (sequence_get gt gs go ng dg s)).
    split; [exact A'|]. split.
    + intros f. rewrite B', !sequence_get_keys. reflexivity.
    + unfold align_frames. apply map_ext. intros f. rewrite !sequence_get_get. reflexivity.
Qed.

Lemma box_kinds k :
  ((exists d, get_desired_box_dof k = Ok d) <-> 1 <= k <= 3)
  /\ forall d t i, get_desired_box_dof k = Ok d ->
     boxes_known (Z.to_nat d)
     /\ (heading (expected_box t (Z.to_nat d) i) = None <-> k = 3)
     /\ (height (expected_box t (Z.to_nat d) i) <> None <-> k = 1)
     /\ (center_z (expected_box t (Z.to_nat d) i) <> None <-> k = 1).
Proof.
  assert (C : (k = 1 /\ get_desired_box_dof k = Ok 7) \/ (k = 2 /\ get_desired_box_dof k = Ok 5)
    \/ (k = 3 /\ get_desired_box_dof k = Ok 4) \/ ((k < 1 \/ 3 < k) /\ get_desired_box_dof k = Err CheckFailed)).
  { destruct k as [|[p|p|]|p]; try (right; right; right; split; [lia|reflexivity]); [| |auto];
      destruct p; auto; right; right; right; (split; [lia|reflexivity]). }
  split.
  - destruct C as [[H ->]|[[H ->]|[[H ->]|[H ->]]]]; split; intros H'; try lia; try (eexists; reflexivity); try (now destruct H').
  - intros d t i E. unfold boxes_known.
    destruct C as [[H E']|[[H E']|[[H E']|[H E']]]]; rewrite E' in E; try discriminate; apply Ok_inj in E; subst d;
      cbn [expected_box Z.to_nat Pos.to_nat Pos.iter_op Nat.add Nat.eqb heading height center_z]; unfold expected_box; cbn;
      (split; [tauto|]); repeat split; intros; subst; try lia; try discriminate; tauto.
Qed.
