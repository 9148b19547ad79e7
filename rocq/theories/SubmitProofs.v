From Coq Require Import Permutation.
From Verif Require Import Base ResultLib WireModel SubmitModel SubmitSpec.
Open Scope Z_scope.

Lemma lessb_iff a b : lessb a b = true <-> below a b.
Proof.
  destruct a as [|q]; cbn; split.
  - discriminate.
  - intros (q & E & _). discriminate.
  - intros H. exists q. split; [reflexivity|]. apply negb_true_iff in H. apply Qnot_le_lt. intros L. apply Qle_bool_iff in L. congruence.
  - intros (q' & E & L). injection E as <-. apply negb_true_iff. destruct (Qle_bool b q) eqn:B; [|reflexivity]. apply Qle_bool_iff in B. destruct (Qlt_not_le _ _ L B).
Qed.
Lemma max_raised a b : raised a b (max_num a b).
Proof.
  unfold raised, max_num. destruct (lessb a b) eqn:E.
  - left. split; [now apply lessb_iff|reflexivity].
  - right. split; [|reflexivity]. rewrite <- lessb_iff, E. discriminate.
Qed.
Lemma is_nan_iff a : is_nan a = true <-> a = NaN.
Proof. destruct a; cbn; split; congruence. Qed.
Section Submit.
Context {R : Type}.
Notation obj := (object R).
Lemma dropped_iff (o : obj) : dropped o = false <-> submitted o.
Proof.
  unfold dropped, submitted, box_numbers. rewrite <- lessb_iff, orb_false_iff, !orb_false_iff. cbn [In].
  destruct (lessb (score o) min_score); destruct (obox o) as [[] [] [] [] [] [] []]; cbn; intuition congruence.
Qed.
Lemma resized_written (o : obj) : written o (resized o).
Proof. unfold written, resized. cbn. do 6 (split; [reflexivity|]). repeat split; apply max_raised. Qed.
Lemma raised_fun a b r1 r2 : raised a b r1 -> raised a b r2 -> r1 = r2.
Proof. intros [[A ->]|[A ->]] [[B ->]|[B ->]]; try reflexivity; contradiction. Qed.
Lemma written_fun (o a b : obj) : written o a -> written o b -> a = b.
Proof.
  intros (A1 & A2 & A3 & A4 & A5 & A6 & A7 & A8 & A9) (B1 & B2 & B3 & B4 & B5 & B6 & B7 & B8 & B9).
  destruct a as [sa [xa ya za la wa ha ra] ta], b as [sb [xb yb zb lb wb hb rb] tb]. cbn in *.
  rewrite (raised_fun _ _ _ _ A7 B7), (raised_fun _ _ _ _ A8 B8), (raised_fun _ _ _ _ A9 B9). congruence.
Qed.
(** The objects of one file that go to shard [k]. *)
Fixpoint picked (n k i : nat) (l : list obj) : list obj :=
  match l with
  | [] => []
  | o :: l' => if dropped o then picked n k (S i) l' else if Nat.eqb (Nat.modulo i n) k then resized o :: picked n k (S i) l' else picked n k (S i) l'
  end.
Lemma picked_picks n k l : forall i, picks (fun i => Nat.modulo i n = k) i l (picked n k i l).
Proof.
  induction l as [|o l IH]; intros i; cbn [picked]; [constructor|]. destruct (dropped o) eqn:D.
  - apply picks_skip; [|apply IH]. intros [S _]. apply dropped_iff in S. congruence.
  - apply dropped_iff in D. destruct (Nat.eqb_spec (Nat.modulo i n) k).
    + apply picks_keep; auto using resized_written.
    + apply picks_skip; [|apply IH]. intros [_ E]. contradiction.
Qed.
Lemma picks_fun p (l : list obj) : forall i a b, picks p i l a -> picks p i l b -> a = b.
Proof.
  induction l as [|o l IH]; intros i a b A B.
  - inversion A; inversion B; subst; reflexivity.
  - inversion A as [|? ? oa ? la SA PA WA HA|? ? ? ? NA HA]; subst; inversion B as [|? ? ob ? lb SB PB WB HB|? ? ? ? NB HB]; subst.
    + f_equal; [eapply written_fun; eassumption|eapply IH; eassumption].
    + destruct NB. split; assumption.
    + destruct NA. split; assumption.
    + eapply IH; eassumption.
Qed.
Lemma append_length k (o : obj) s : length (append_at k o s) = length s.
Proof. revert k. induction s as [|x s IH]; intros [|k]; cbn; [reflexivity| reflexivity| reflexivity|]. now rewrite IH. Qed.
Lemma append_nth k (o : obj) s j : (k < length s)%nat -> nth j (append_at k o s) [] = nth j s [] ++ (if Nat.eqb k j then [o] else []).
Proof.
  revert k j. induction s as [|x s IH]; intros k j L; cbn [length] in L; [lia|]. destruct k as [|k], j as [|j]; cbn [append_at nth Nat.eqb]; rewrite ?app_nil_r; try reflexivity.
  apply IH. lia.
Qed.
Lemma add_file_length n l : forall i (s : list (list obj)), length (add_file n i l s) = length s.
Proof. induction l as [|o l IH]; intros i s; cbn [add_file]; [reflexivity|]. rewrite IH. destruct (dropped o); [reflexivity|apply append_length]. Qed.
Lemma add_file_nth n l k : (0 < n)%nat -> forall i (s : list (list obj)), length s = n -> nth k (add_file n i l s) [] = nth k s [] ++ picked n k i l.
Proof.
  intros N. induction l as [|o l IH]; intros i s L; cbn [add_file picked]; [now rewrite app_nil_r|]. destruct (dropped o).
  - apply IH. exact L.
  - rewrite IH by (rewrite append_length; exact L). rewrite append_nth by (rewrite L; apply Nat.mod_upper_bound; lia).
    rewrite <- app_assoc. destruct (Nat.eqb (Nat.modulo i n) k); reflexivity.
Qed.
Lemma add_files_length n fs : forall (s : list (list obj)), length (add_files n fs s) = length s.
Proof. induction fs as [|f fs IH]; intros s; cbn [add_files fold_left]; [reflexivity|]. fold (add_files n fs (add_file n 0 f s)). rewrite IH. apply add_file_length. Qed.
Lemma add_files_nth n fs k : (0 < n)%nat -> forall (s : list (list obj)), length s = n -> nth k (add_files n fs s) [] = nth k s [] ++ concat (map (picked n k 0) fs).
Proof.
  intros N. induction fs as [|f fs IH]; intros s L; cbn [add_files fold_left map concat]; [now rewrite app_nil_r|]. fold (add_files n fs (add_file n 0 f s)).
  rewrite IH by (rewrite add_file_length; exact L). rewrite add_file_nth by assumption. now rewrite app_assoc.
Qed.
Lemma nth_map_seq {A} (l : list A) d : l = map (fun k => nth k l d) (seq 0 (length l)).
Proof. induction l as [|a l IH]; [reflexivity|]. cbn [length seq map nth]. f_equal. rewrite <- seq_shift, map_map. exact IH. Qed.

(** All submitted objects of a file. *)
Lemma all_picks (l : list obj) : forall i, picks (fun _ => True) i l (map resized (filter (fun o => negb (dropped o)) l)).
Proof.
  induction l as [|o l IH]; intros i; cbn [filter map]; [constructor|]. destruct (dropped o) eqn:D; cbn [negb map].
  - apply picks_skip; [|apply IH]. intros [S _]. apply dropped_iff in S. congruence.
  - apply dropped_iff in D. apply picks_keep; auto using resized_written.
Qed.
Lemma append_perm k (o : obj) s : (k < length s)%nat -> Permutation (concat (append_at k o s)) (concat s ++ [o]).
Proof.
  revert k. induction s as [|x s IH]; intros k L; cbn [length] in L; [lia|]. destruct k as [|k]; cbn [append_at concat].
  - rewrite <- !app_assoc. apply Permutation_app_head. apply Permutation_app_comm.
  - rewrite <- app_assoc. apply Permutation_app_head. apply IH. lia.
Qed.
Lemma add_file_perm n l : (0 < n)%nat -> forall i (s : list (list obj)), length s = n ->
  Permutation (concat (add_file n i l s)) (concat s ++ map resized (filter (fun o => negb (dropped o)) l)).
Proof.
  intros N. induction l as [|o l IH]; intros i s L; cbn [add_file filter map]; [rewrite app_nil_r; reflexivity|]. destruct (dropped o); cbn [negb map].
  - apply IH. exact L.
  - rewrite IH by (rewrite append_length; exact L). rewrite append_perm by (rewrite L; apply Nat.mod_upper_bound; lia). rewrite <- app_assoc. reflexivity.
Qed.
Lemma add_files_perm n fs : (0 < n)%nat -> forall (s : list (list obj)), length s = n ->
  Permutation (concat (add_files n fs s)) (concat s ++ concat (map (fun l => map resized (filter (fun o => negb (dropped o)) l)) fs)).
Proof.
  intros N. induction fs as [|f fs IH]; intros s L; cbn [add_files fold_left map concat]; [rewrite app_nil_r; reflexivity|].
  fold (add_files n fs (add_file n 0 f s)). rewrite IH by (rewrite add_file_length; exact L). rewrite add_file_perm by assumption. rewrite <- app_assoc. reflexivity.
Qed.

Variables valid_object valid_polygon : list Z -> bool.
Variable decode : list Z -> obj.
Notation run := (run valid_object valid_polygon decode).
Theorem run_shards num files t contents : 0 < num -> files <> [] -> method_name t <> [] -> account_name t <> [] ->
  mapM (read_input valid_object valid_polygon) files = Ok contents ->
  exists shards, run num files t = Ok shards /\ length shards = Z.to_nat num /\
    (forall k, (k < Z.to_nat num)%nat -> shard_of (Z.to_nat num) k (results t) (map (map decode) contents) (nth k shards [])) /\
    exists all, Forall2 (picks (fun _ => True) 0) (map (map decode) contents) all /\
      Permutation (concat shards) (concat (repeat (results t) (Z.to_nat num)) ++ concat all).
Proof.
  intros P F M A E. unfold SubmitModel.run. destruct files as [|f0 fs0]; [congruence|]. cbn [length Nat.eqb]. destruct (Z.leb_spec num 0); [lia|].
  rewrite E. cbn [bind]. destruct (method_name t) as [|m0 m1]; [congruence|]. destruct (account_name t) as [|a0 a1]; [congruence|]. cbn [length Nat.eqb orb].
  set (n := Z.to_nat num). assert (N : (0 < n)%nat) by lia. eexists. split; [reflexivity|]. split; [rewrite add_files_length; apply repeat_length|]. split.
  - intros k K. rewrite add_files_nth by (assumption || apply repeat_length). exists (map (picked n k 0) (map (map decode) contents)). split.
    + induction (map (map decode) contents) as [|x l IH]; cbn [map]; constructor; [apply picked_picks|exact IH].
    + f_equal. clear - K. revert k K. induction n as [|n IH]; intros k K; [lia|]. destruct k; cbn [repeat nth]; [reflexivity|]. apply IH. lia.
  - exists (map (fun l => map resized (filter (fun o => negb (dropped o)) l)) (map (map decode) contents)). split.
    + induction (map (map decode) contents) as [|x l IH]; cbn [map]; constructor; [apply all_picks|exact IH].
    + apply add_files_perm; [exact N|apply repeat_length].
Qed.
Theorem run_refused num files t : (exists shards, run num files t = Ok shards) <->
  0 < num /\ files <> [] /\ method_name t <> [] /\ account_name t <> [] /\ exists contents, mapM (read_input valid_object valid_polygon) files = Ok contents.
Proof.
  unfold SubmitModel.run. split.
  - intros [s H]. destruct files; [discriminate|]. cbn [length Nat.eqb] in H. destruct (Z.leb_spec num 0); [discriminate|]. destruct (mapM _ _) as [c|] eqn:E; [|discriminate]. cbn [bind] in H.
    destruct (method_name t), (account_name t); try discriminate H. split; [lia|]. repeat split; try discriminate. exists c. reflexivity.
  - intros (P & F & M & A & c & E). destruct (run_shards num files t c P F M A E) as (s & H & _). exists s. exact H.
Qed.
Theorem shard_unique n k t fs (a b : list obj) : shard_of n k t fs a -> shard_of n k t fs b -> a = b.
Proof.
  intros (pa & Fa & ->) (pb & Fb & ->). f_equal. f_equal. clear - Fa Fb. revert pb Fb. induction Fa as [|f p fs pa H Fa IH]; intros pb Fb; inversion Fb; subst; [reflexivity|].
  f_equal; [eapply picks_fun; eassumption|]. now apply IH.
Qed.
Lemma picks_In p i (l l' : list obj) : picks p i l l' -> forall o', In o' l' -> exists o, In o l /\ submitted o /\ written o o'.
Proof.
  induction 1 as [i|i o o' l l' Su P W H IH|i o l l' N H IH]; intros x Ix; [destruct Ix| |].
  - destruct Ix as [<-|Ix]; [exists o; split; [now left|split; assumption]|]. destruct (IH x Ix) as (y & Iy & Hy). exists y. split; [now right|exact Hy].
  - destruct (IH x Ix) as (y & Iy & Hy). exists y. split; [now right|exact Hy].
Qed.
Lemma raised_least a b r : a <> NaN -> raised a b r -> at_least r b.
Proof.
  intros A [[_ ->]|[N ->]]; [exists b; split; [reflexivity|apply Qle_refl]|]. destruct a as [|q]; [congruence|]. exists q. split; [reflexivity|].
  apply Qnot_lt_le. intros L. apply N. exists q. split; [reflexivity|exact L].
Qed.
Theorem written_usable o (o' : obj) : submitted o -> written o o' ->
  ~ In NaN (box_numbers (obox o')) /\ at_least (blength (obox o')) min_size /\ at_least (bwidth (obox o')) min_size /\ at_least (bheight (obox o')) min_size.
Proof.
  intros [_ S] (_ & _ & X & Y & Z0 & H & L & W & T). unfold box_numbers in *. cbn [In] in *.
  assert (NL : blength (obox o) <> NaN) by tauto. assert (NW : bwidth (obox o) <> NaN) by tauto. assert (NT : bheight (obox o) <> NaN) by tauto.
  pose proof (raised_least _ _ _ NL L) as AL. pose proof (raised_least _ _ _ NW W) as AW. pose proof (raised_least _ _ _ NT T) as AT.
  split; [|tauto]. rewrite X, Y, Z0, H. destruct AL as (? & -> & _), AW as (? & -> & _), AT as (? & -> & _).
  intros I. apply S. destruct I as [I|[I|[I|[I|[I|[I|[I|[]]]]]]]]; try discriminate I; rewrite I; tauto.
Qed.
End Submit.

Definition unit_box : box := {| center_x := Num 0; center_y := Num 0; center_z := Num 0; blength := Num 1; bwidth := Num 1; bheight := Num 1; heading := Num 0 |}.
(** The float nearest to 0.03 is below the double nearest to 0.03. *)
Definition float_0_03 : Q := 16106127 # 536870912.
Theorem float_threshold : ~ submitted {| score := Num float_0_03; obox := unit_box; rest := tt |} /\
  (Qabs.Qabs (float_0_03 - (3 # 100)) < 1 # 1000000000)%Q.
Proof.
  split; [|reflexivity]. intros [H _]. apply H. exists float_0_03. split; reflexivity.
Qed.
Theorem nan_score : submitted {| score := NaN; obox := unit_box; rest := tt |}.
Proof. split; [intros (q & E & _); discriminate|]. cbn. intuition congruence. Qed.
Theorem one_per_file (R : Type) valid_object valid_polygon decode num files (t : template R) contents shards :
  mapM (read_input valid_object valid_polygon) files = Ok contents -> Forall (fun c => (length c <= 1)%nat) contents ->
  results t = [] -> run valid_object valid_polygon decode num files t = Ok shards ->
  forall k, (0 < k)%nat -> nth k shards [] = [].
Proof.
  intros E L T H k K. destruct (proj1 (run_refused valid_object valid_polygon decode num files t) (ex_intro _ shards H)) as (P & F & M & A & _).
  destruct (run_shards valid_object valid_polygon decode num files t contents P F M A E) as (s & H' & Len & Sh & _). rewrite H in H'. injection H' as <-.
  destruct (Nat.lt_ge_cases k (Z.to_nat num)) as [Lk|Lk]; [|apply nth_overflow; lia].
  destruct (Sh k Lk) as (parts & Fp & ->). rewrite T. cbn [app].
  assert (G : forall (fs : list (list (object R))) ps, Forall (fun c => (length c <= 1)%nat) fs -> Forall2 (picks (fun i => Nat.modulo i (Z.to_nat num) = k) 0) fs ps -> concat ps = []).
  { clear - K P. induction fs as [|f fs IH]; intros ps Lf Fp; inversion Fp as [|? p ? ps' Hp Hps]; subst; [reflexivity|]. inversion Lf as [|? ? L1 L2]; subst. cbn [concat].
    rewrite (IH ps' L2 Hps), app_nil_r. destruct f as [|o [|o2 f]]; cbn [length] in L1; [inversion Hp; reflexivity| |lia].
    inversion Hp as [|? ? ? ? ? _ E0|? ? ? ? _ Hn]; subst; [rewrite Nat.mod_0_l in K by lia; lia|]. inversion Hn; reflexivity. }
  apply (G (map (map decode) contents)); [|exact Fp]. rewrite Forall_map. eapply Forall_impl; [|exact L]. intros c Lc. rewrite map_length. exact Lc.
Qed.
