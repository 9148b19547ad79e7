From Verif Require Import Base ResultLib WireModel WireSpec.
Open Scope Z_scope.

Lemma varint_round fuel : forall n r, 0 <= n < 128 ^ Z.of_nat (S fuel) -> get_varint (S fuel) (put_varint (S fuel) n ++ r) = Some (n, r).
Proof.
  induction fuel as [|f IH]; intros n r H.
  - change (128 ^ Z.of_nat 1) with 128 in H. cbn [put_varint]. destruct (Z.ltb_spec n 128); [|lia]. cbn [app get_varint]. destruct (Z.ltb_spec n 128); [reflexivity|lia].
  - remember (S f) as k eqn:Ek. cbn [put_varint]. destruct (Z.ltb_spec n 128) as [L|L].
    + cbn [app get_varint]. destruct (Z.ltb_spec n 128); [reflexivity|lia].
    + cbn [app get_varint]. pose proof (Z.mod_pos_bound n 128 ltac:(lia)). destruct (Z.ltb_spec (n mod 128 + 128) 128); [lia|].
      rewrite IH.
      * f_equal. f_equal. pose proof (Z.div_mod n 128). lia.
      * split; [apply Z.div_pos; lia|]. apply Z.div_lt_upper_bound; [lia|].
        replace (Z.of_nat (S k)) with (Z.of_nat k + 1) in H by lia. rewrite Z.pow_add_r in H by lia. lia.
Qed.
Lemma varint10 n r : 0 <= n < 2 ^ 64 -> get_varint 10 (put_varint 10 n ++ r) = Some (n, r).
Proof. intros H. apply varint_round. split; [lia|]. eapply Z.lt_trans; [apply H|]. reflexivity. Qed.
Lemma put_varint_ne f n : put_varint (S f) n <> [].
Proof. cbn [put_varint]. destruct (n <? 128); discriminate. Qed.
Lemma take_app (b r : list Z) : take (length b) (b ++ r) = Some (b, r).
Proof.
  unfold take. rewrite app_length. destruct (Nat.ltb_spec (length b + length r) (length b)); [lia|].
  rewrite firstn_app, skipn_app, Nat.sub_diag, firstn_all, skipn_all. cbn [firstn skipn app]. rewrite app_nil_r. reflexivity.
Qed.
Lemma tag_parts num w : 0 < num < 2 ^ 29 -> (num * 8 + wire_code w) / 8 = num /\ (num * 8 + wire_code w) mod 8 = wire_code w /\ 0 <= num * 8 + wire_code w < 2 ^ 64.
Proof.
  intros H. assert (C : 0 <= wire_code w < 8) by (destruct w; cbn; lia). split; [|split].
  - symmetry. apply (Z.div_unique_pos _ 8 num (wire_code w)); lia.
  - symmetry. apply (Z.mod_unique_pos _ 8 num (wire_code w)); lia.
  - lia.
Qed.
Lemma field_round f r : field_ok f -> get_field (put_field f ++ r) = Some (f, r).
Proof.
  destruct f as [num w]. intros [N W]. cbn [fst snd] in *. destruct (tag_parts num w N) as (D & M & B).
  unfold get_field, put_field. cbn [fst snd]. rewrite <- app_assoc, varint10 by exact B. rewrite D. destruct (Z.eqb_spec num 0); [lia|]. rewrite M.
  destruct w as [v|b|b|b]; cbn [wire_code put_wire wire_ok] in *.
  - rewrite varint10 by exact W. reflexivity.
  - rewrite <- W, take_app. reflexivity.
  - rewrite <- app_assoc, varint10 by exact W. rewrite Nat2Z.id, take_app. reflexivity.
  - rewrite <- W, take_app. reflexivity.
Qed.
Lemma put_field_ne f : put_field f <> [].
Proof. unfold put_field. intros E. apply app_eq_nil in E as [E _]. exact (put_varint_ne 9 _ E). Qed.
Lemma put_field_length f : (1 <= length (put_field f))%nat.
Proof. pose proof (put_field_ne f). destruct (put_field f); [congruence|]. cbn [length]. lia. Qed.
Lemma fields_app fs : forall fuel r, Forall field_ok fs -> (length (serialize fs) <= fuel)%nat ->
  get_fields fuel (serialize fs ++ r) = match get_fields (fuel - length fs) r with Some l => Some (fs ++ l) | None => None end.
Proof.
  induction fs as [|f fs IH]; intros fuel r F L.
  - cbn [serialize map concat app length]. rewrite Nat.sub_0_r. destruct (get_fields fuel r); reflexivity.
  - inversion F as [|? ? F1 F2]; subst. unfold serialize in *. cbn [map concat] in *. rewrite app_length in L. pose proof (put_field_length f).
    destruct fuel as [|fuel]; [lia|]. rewrite <- app_assoc. cbn [get_fields].
    destruct (put_field f ++ concat (map put_field fs) ++ r) as [|b0 bs0] eqn:E.
    + apply app_eq_nil in E as [E _]. destruct (put_field_ne f E).
    + rewrite <- E, field_round by exact F1. rewrite IH by (exact F2 || lia). cbn [length]. rewrite Nat.sub_succ.
      destruct (get_fields (fuel - length fs) r); reflexivity.
Qed.
Theorem parse_round fs : Forall field_ok fs -> parse (serialize fs) = Some fs.
Proof.
  intros F. unfold parse. rewrite <- (app_nil_r (serialize fs)) at 2. rewrite fields_app by (exact F || lia).
  destruct (length (serialize fs) - length fs)%nat; cbn [get_fields]; rewrite app_nil_r; reflexivity.
Qed.

Lemma messages_app k a b : messages k (a ++ b) = messages k a ++ messages k b.
Proof. unfold messages. apply flat_map_app. Qed.
Lemma messages_none k fs : (forall b, ~ In (k, LEN b) fs) -> messages k fs = [].
Proof.
  induction fs as [|[k' w] fs IH]; intros N; [reflexivity|]. unfold messages. cbn [flat_map]. fold (messages k fs).
  rewrite IH by (intros b I; apply (N b); right; exact I). destruct w as [|?|b|?]; try reflexivity. destruct (Z.eqb_spec k' k) as [->|]; [|reflexivity].
  destruct (N b). left. reflexivity.
Qed.
Lemma messages_objects objs : messages 1 (map (fun b => (1, LEN b)) objs) = objs /\ messages 2 (map (fun b => (1, LEN b)) objs) = [].
Proof.
  induction objs as [|b objs [IH1 IH2]]; [split; reflexivity|]. unfold messages in *. cbn [map flat_map]. rewrite IH1, IH2. split; reflexivity.
Qed.
Section Files.
Variables valid_object valid_polygon : list Z -> bool.
Lemma objects_fields objs : Forall (fun b => fits_varint (Z.of_nat (length b))) objs -> Forall field_ok (map (fun b => (1, LEN b)) objs).
Proof. intros F. rewrite Forall_map. eapply Forall_impl; [|exact F]. intros b B. split; [cbn; lia|exact B]. Qed.
Lemma objects_round objs : Forall (fun b => fits_varint (Z.of_nat (length b)) /\ valid_object b = true) objs ->
  parse_objects valid_object valid_polygon (objects_file objs) = Some objs.
Proof.
  intros F. unfold parse_objects, objects_file. rewrite parse_round.
  - destruct (messages_objects objs) as [-> ->]. rewrite (proj2 (forallb_forall valid_object objs)); [reflexivity|]. intros b I. rewrite Forall_forall in F. exact (proj2 (F b I)).
  - apply objects_fields. eapply Forall_impl; [|exact F]. intros b [B _]. exact B.
Qed.
Theorem objects_read objs : Forall (fun b => fits_varint (Z.of_nat (length b)) /\ valid_object b = true) objs ->
  read_objects_file valid_object valid_polygon (objects_file objs) = Ok objs.
Proof. intros F. unfold read_objects_file. rewrite objects_round by exact F. reflexivity. Qed.
Theorem submission_read fs name objs : submission_ok fs name objs ->
  Forall (fun b => fits_varint (Z.of_nat (length b)) /\ valid_object b = true) objs ->
  read_objects_file valid_object valid_polygon (serialize fs) = Ok (if valid_zone valid_polygon name then [] else objs).
Proof.
  intros (F & N1 & (a & b & E2 & N2) & (c & d & E11 & N11)) V. unfold read_objects_file, parse_objects. rewrite parse_round by exact F.
  rewrite (messages_none 1 fs N1). cbn [forallb andb].
  assert (M2 : messages 2 fs = [name]).
  { rewrite E2, messages_app. unfold messages at 2. cbn [flat_map]. fold (messages 2 b). rewrite Z.eqb_refl.
    rewrite !messages_none by (intros x I; apply (N2 x), in_or_app; auto). reflexivity. }
  rewrite M2. cbn [forallb]. rewrite andb_true_r. destruct (valid_zone valid_polygon name); [reflexivity|].
  unfold parse_submission. rewrite parse_round by exact F.
  assert (M11 : messages 11 fs = [objects_file objs]).
  { rewrite E11, messages_app. unfold messages at 2. cbn [flat_map]. fold (messages 11 d). rewrite Z.eqb_refl.
    rewrite !messages_none by (intros x I; apply (N11 x), in_or_app; auto). reflexivity. }
  rewrite M11. cbn [parse_all]. rewrite objects_round by exact V. rewrite app_nil_r. reflexivity.
Qed.

(** ** Input files of create_submission *)
Lemma get_varint_short fuel : forall bs n r, get_varint fuel bs = Some (n, r) -> (length r < length bs)%nat.
Proof.
  induction fuel as [|f IH]; intros bs n r H; [discriminate|]. destruct bs as [|b bs]; [discriminate|]. cbn [get_varint] in H.
  destruct (b <? 128); [injection H as <- <-; cbn; lia|]. destruct (get_varint f bs) as [[m r']|] eqn:E; [|discriminate]. injection H as <- <-. apply IH in E. cbn [length]. lia.
Qed.
Lemma cut_field k b : 0 < k < 2 ^ 29 -> fits_varint (Z.of_nat (length b)) -> b <> [] -> get_field (removelast (put_field (k, LEN b))) = None.
Proof.
  intros K B N. unfold put_field. cbn [fst snd put_wire]. rewrite removelast_app.
  2:{ intros E. apply app_eq_nil in E as [E _]. exact (put_varint_ne 9 _ E). }
  rewrite removelast_app by exact N. destruct (tag_parts k (LEN b) K) as (D & M & T). unfold get_field. rewrite varint10 by exact T. rewrite D. destruct (Z.eqb_spec k 0); [lia|]. rewrite M. cbn [wire_code].
  rewrite varint10 by exact B. rewrite Nat2Z.id. unfold take.
  assert (L : length b = S (length (removelast b))). { rewrite (app_removelast_last 0 N) at 1. rewrite app_length. cbn [length]. lia. }
  destruct (Nat.ltb_spec (length (removelast b)) (length b)); [reflexivity|lia].
Qed.
Lemma objects_file_snoc objs b : objects_file (objs ++ [b]) = objects_file objs ++ put_field (1, LEN b).
Proof. unfold objects_file, serialize. rewrite !map_app, concat_app. cbn [map concat]. rewrite app_nil_r. reflexivity. Qed.
Lemma put_len_last b x : put_field (1, LEN (b ++ [x])) = (put_varint 10 10 ++ put_varint 10 (Z.of_nat (length (b ++ [x]))) ++ b) ++ [x].
Proof. unfold put_field. cbn [fst snd put_wire wire_code]. change (1 * 8 + 2) with 10. rewrite !app_assoc. reflexivity. Qed.
Lemma cut_file objs b : Forall (fun b => fits_varint (Z.of_nat (length b))) (objs ++ [b]) -> b <> [] -> parse (removelast (objects_file (objs ++ [b]))) = None.
Proof.
  intros F N. rewrite objects_file_snoc, removelast_app by (apply put_field_ne). apply Forall_app in F as [F1 F2]. inversion F2 as [|? ? Fb _]; subst.
  unfold parse, objects_file. rewrite fields_app.
  - pose proof (cut_field 1 b ltac:(lia) Fb N) as C.
    destruct (removelast (put_field (1, LEN b))) as [|y ys] eqn:E.
    + exfalso. destruct (exists_last N) as (b' & x & ->). rewrite put_len_last, removelast_last in E. apply app_eq_nil in E as [E _]. exact (put_varint_ne 9 _ E).
    + match goal with |- context [get_fields ?n (y :: ys)] => destruct n end; [reflexivity|]. cbn [get_fields]. rewrite C. reflexivity.
  - apply objects_fields. exact F1.
  - rewrite app_length. lia.
Qed.
Theorem input_read objs b : Forall (fun b => fits_varint (Z.of_nat (length b)) /\ valid_object b = true) (objs ++ [b]) ->
  read_input valid_object valid_polygon (objects_file (objs ++ [b])) =
  if last b 0 =? 10 then Err CheckFailed else Ok (objs ++ [b]).
Proof.
  intros F. pose proof (objects_round _ F) as R. unfold read_input.
  destruct b as [|b0 b1].
  - rewrite objects_file_snoc. change (put_field (1, LEN [])) with ([10] ++ [0]). rewrite app_assoc, rev_app_distr. cbn [rev app last]. cbn [Z.eqb]. rewrite objects_file_snoc in R. change (put_field (1, LEN [])) with ([10] ++ [0]) in R. rewrite app_assoc in R. rewrite R. reflexivity.
  - assert (N : b0 :: b1 <> []) by discriminate. remember (b0 :: b1) as b eqn:Eb. clear Eb. pose proof (cut_file objs b) as C. destruct (exists_last N) as (b' & x & ->). rewrite last_last. rewrite objects_file_snoc, put_len_last in *. rewrite app_assoc in *. rewrite rev_app_distr. cbn [rev app].
    destruct (Z.eqb_spec x 10) as [->|]; [|rewrite R; reflexivity].
    rewrite rev_involutive. rewrite removelast_last in C. unfold parse_objects. rewrite C; [reflexivity| |exact N]. eapply Forall_impl; [|exact F]. intros y [Y _]. exact Y.
Qed.
Theorem input_newline objs : Forall (fun b => fits_varint (Z.of_nat (length b)) /\ valid_object b = true) objs ->
  read_input valid_object valid_polygon (objects_file objs ++ [10]) = Ok objs.
Proof.
  intros F. unfold read_input. rewrite rev_app_distr. cbn [rev app]. rewrite Z.eqb_refl, rev_involutive, objects_round by exact F. reflexivity.
Qed.
Theorem input_empty : read_input valid_object valid_polygon (objects_file []) = Err IndexError.
Proof. reflexivity. Qed.
End Files.

Section Names.
Variables valid_object valid_polygon : list Z -> bool.
Theorem submission_kept fs name objs : submission_ok fs name objs ->
  Forall (fun b => fits_varint (Z.of_nat (length b)) /\ valid_object b = true) objs -> ~ looks_like_message name ->
  read_objects_file valid_object valid_polygon (serialize fs) = Ok objs.
Proof.
  intros S V N. rewrite (submission_read valid_object valid_polygon fs name objs S V). unfold valid_zone. destruct (parse name) as [l|] eqn:E; [|reflexivity].
  destruct N. exists l. exact E.
Qed.
Theorem submission_lost fs name objs l : submission_ok fs name objs ->
  Forall (fun b => fits_varint (Z.of_nat (length b)) /\ valid_object b = true) objs -> parse name = Some l -> (forall b, ~ In (1, LEN b) l) ->
  read_objects_file valid_object valid_polygon (serialize fs) = Ok [].
Proof.
  intros S V E N. rewrite (submission_read valid_object valid_polygon fs name objs S V). unfold valid_zone. rewrite E, (messages_none 1 l N). reflexivity.
Qed.
End Names.
(** The submission of a method called MyNet with one object. *)
Definition mynet : list field := [(1, VARINT 2); (2, LEN [77; 121; 78; 101; 116]); (11, LEN (objects_file [[40; 7]]))].
Lemma mynet_ok : submission_ok mynet [77; 121; 78; 101; 116] [[40; 7]].
Proof.
  split; [|split; [|split]].
  - repeat constructor; cbn; try lia.
  - intros b I. cbn [mynet In] in I. intuition congruence.
  - exists [(1, VARINT 2)], [(11, LEN (objects_file [[40; 7]]))]. split; [reflexivity|]. intros b I. cbn [app In] in I. intuition congruence.
  - exists [(1, VARINT 2); (2, LEN [77; 121; 78; 101; 116])], []. split; [reflexivity|]. intros b I. cbn [app In] in I. intuition congruence.
Qed.
Theorem submission_refuted : exists fs name objs, submission_ok fs name objs /\ objs <> [] /\
  forall valid_object valid_polygon, Forall (fun b => valid_object b = true) objs ->
    read_objects_file valid_object valid_polygon (serialize fs) = Ok [].
Proof.
  exists mynet, [77; 121; 78; 101; 116], [[40; 7]]. split; [exact mynet_ok|]. split; [discriminate|]. intros vo vp F.
  apply (submission_lost vo vp mynet [77; 121; 78; 101; 116] [[40; 7]] [(9, I32 [121; 78; 101; 116])]); [exact mynet_ok| |reflexivity|].
  - eapply Forall_impl; [|apply (Forall_and F (Q := fun b => fits_varint (Z.of_nat (length b))))]; [intros b [A B]; split; assumption|]. repeat constructor; cbn; lia.
  - intros b I. cbn in I. intuition congruence.
Qed.
Theorem input_refuted : exists objs, forall valid_object valid_polygon, Forall (fun b => valid_object b = true) objs ->
  read_objects_file valid_object valid_polygon (objects_file objs) = Ok objs /\
  read_input valid_object valid_polygon (objects_file objs) = Err CheckFailed.
Proof.
  exists [[40; 10]]. intros vo vp F.
  assert (V : Forall (fun b => fits_varint (Z.of_nat (length b)) /\ vo b = true) [[40; 10]]).
  { inversion F as [|? ? F1 _]; subst. repeat constructor; cbn; try lia; exact F1. }
  split; [apply objects_read; exact V|]. exact (input_read vo vp [] [40; 10] V).
Qed.
