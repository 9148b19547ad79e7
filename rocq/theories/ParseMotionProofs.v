(** Motion predictions parsed from tensors. *)
From Coq Require Import String Sorting.Sorted Sorting.Permutation.
From Verif Require Import Base ResultLib MonadLib ListLib ParseModel ParseSpec ParseMapProofs ParseObjectProofs.
Open Scope list_scope.
Open Scope Z_scope.

(** ** Sizes *)

Lemma check_rank_ok {A} (t : tensor A) r : List.length (dims t) = r -> check_rank t r = Ok tt.
Proof. intros H. unfold check_rank, check. rewrite H, Nat.eqb_refl. reflexivity. Qed.
Lemma check_rank_inv {A} (t : tensor A) r u : check_rank t r = Ok u -> List.length (dims t) = r.
Proof.
  unfold check_rank, check. destruct (Nat.eqb _ _) eqn:E; [|discriminate]. intros _.
  apply Nat.eqb_eq. exact E.
Qed.
Lemma dim_size_inv {A} (t : tensor A) k n : dim_size t k = Ok n -> nth_error (dims t) k = Some n.
Proof.
  unfold dim_size. destruct (nth_error (dims t) k); [|discriminate]. intros E. apply Ok_inj in E. congruence.
Qed.

Lemma list1 {A} (l : list A) a : List.length l = 1%nat -> nth_error l 0 = Some a -> l = [a].
Proof. destruct l as [|x [|y l]]; cbn; try discriminate. congruence. Qed.
Lemma list2 {A} (l : list A) a b : List.length l = 2%nat -> nth_error l 0 = Some a -> nth_error l 1 = Some b ->
  l = [a; b].
Proof. destruct l as [|x [|y [|z l]]]; cbn; try discriminate. congruence. Qed.
Lemma list3 {A} (l : list A) a b c : List.length l = 3%nat -> nth_error l 0 = Some a ->
  nth_error l 1 = Some b -> nth_error l 2 = Some c -> l = [a; b; c].
Proof. destruct l as [|x [|y [|z [|w l]]]]; cbn; try discriminate. congruence. Qed.
Lemma list4 {A} (l : list A) a b c d : List.length l = 4%nat -> nth_error l 0 = Some a ->
  nth_error l 1 = Some b -> nth_error l 2 = Some c -> nth_error l 3 = Some d -> l = [a; b; c; d].
Proof. destruct l as [|x [|y [|z [|w [|v l]]]]]; cbn; try discriminate. congruence. Qed.
Lemma list6 {A} (l : list A) a b c d e : List.length l = 6%nat -> nth_error l 0 = Some a ->
  nth_error l 1 = Some b -> nth_error l 2 = Some c -> nth_error l 3 = Some d -> nth_error l 4 = Some e ->
  exists f, l = [a; b; c; d; e; f].
Proof.
  destruct l as [|x [|y [|z [|w [|v [|u [|s l]]]]]]]; cbn; try discriminate. intros _ E1 E2 E3 E4 E5.
  exists u. congruence.
Qed.

Lemma motion_sizes_inv inp sz : motion_sizes inp = Ok sz -> motion_shapes inp sz.
Proof.
    intros E. unfold motion_sizes in E.
    dbind E r1 R1. dbind E r2 R2. dbind E r3 R3. dbind E r4 R4. dbind E r5 R5. dbind E r6 R6.
    dbind E r7 R7. dbind E r8 R8. dbind E r9 R9.
    dbind E b Eb. dbind E m Em. dbind E k Ek. dbind E n En. dbind E tp Et. dbind E a Ea. dbind E tg Eg.
    dbind E c1 C1. dbind E c2 C2. dbind E c3 C3. dbind E c4 C4. dbind E c5 C5. dbind E c6 C6. dbind E c7 C7.
    dbind E c8 C8. dbind E c9 C9. dbind E c10 C10. dbind E c11 C11. dbind E c12 C12. dbind E c13 C13.
    dbind E c14 C14. dbind E c15 C15. dbind E c16 C16. dbind E c17 C17. dbind E c18 C18. dbind E c19 C19.
    apply Ok_inj in E. subst sz.
    apply check_rank_inv in R1, R2, R3, R4, R5, R6, R7, R8, R9.
    apply dim_size_inv in Eb, Em, Ek, En, Et, Ea, Eg.
    apply check_dim_inv in C1, C2, C3, C4, C5, C6, C7, C8, C9, C10, C11, C12, C13, C14, C15, C16, C17, C18, C19.
    unfold motion_shapes. cbn [n_batch n_groups n_top n_per_group n_pred_steps n_agents n_gt_steps].
    split; [exact (list6 _ _ _ _ _ _ R1 Eb Em Ek En Et)|].
    split; [exact (list3 _ _ _ _ R2 C1 C2 C3)|].
    split; [exact (list4 _ _ _ _ _ R3 C4 Ea Eg C5)|].
    split; [exact (list3 _ _ _ _ R4 C6 C7 C8)|].
    split; [exact (list3 _ _ _ _ R5 C9 C10 C11)|].
    split; [exact (list3 _ _ _ _ R6 C12 C13 C14)|].
    split; [exact (list2 _ _ _ R7 C15 C16)|].
    split; [exact (list2 _ _ _ R8 C18 C19)|].
    exact (list1 _ _ R9 C17).
Qed.
Lemma bind_intro {A B} (r : result A) a (f : A -> result B) x : r = Ok a -> f a = x -> bind r f = x.
Proof. intros -> <-. reflexivity. Qed.
Lemma dim_size_ok {A} (t : tensor A) k n : nth_error (dims t) k = Some n -> dim_size t k = Ok n.
Proof. intros H. unfold dim_size. rewrite H. reflexivity. Qed.
Lemma motion_sizes_ok inp sz : motion_shapes inp sz -> motion_sizes inp = Ok sz.
Proof.
  intros ((c & D1) & D2 & D3 & D4 & D5 & D6 & D7 & D8 & D9). unfold motion_sizes.
  do 9 (eapply bind_intro; [apply check_rank_ok; rewrite ?D1, ?D2, ?D3, ?D4, ?D5, ?D6, ?D7, ?D8, ?D9;
    reflexivity|]).
  do 7 (eapply bind_intro; [apply dim_size_ok; rewrite ?D1, ?D3; reflexivity|]).
  do 19 (eapply bind_intro; [apply check_dim_ok; rewrite ?D1, ?D2, ?D3, ?D4, ?D5, ?D6, ?D7, ?D8, ?D9;
    reflexivity|]).
  destruct sz. reflexivity.
Qed.
Lemma motion_sizes_iff inp sz : motion_sizes inp = Ok sz <-> motion_shapes inp sz.
Proof. split; [apply motion_sizes_inv|apply motion_sizes_ok]. Qed.

(** ** Generic loops *)

Lemma foldM_app {A S} (f : S -> A -> result S) l l' : forall s,
  foldM f (l ++ l') s = (do s' <- foldM f l s; foldM f l' s').
Proof.
  induction l as [|x l IH]; intros s; [reflexivity|]. cbn [app foldM].
  destruct (f s x); cbn [bind]; [apply IH|reflexivity].
Qed.
Lemma foldM_each {A S} (f : S -> A -> result S) l : forall s r, foldM f l s = Ok r ->
  forall x, In x l -> exists s0 s1, f s0 x = Ok s1.
Proof.
  induction l as [|y l IH]; intros s r E x I; [destruct I|]. cbn [foldM] in E. dbind E s1 E1.
  destruct I as [<-|I]; [exists s, s1; exact E1|exact (IH _ _ E x I)].
Qed.
Lemma mapM_map {A B} (f : A -> result B) (g : A -> B) l : (forall x, In x l -> f x = Ok (g x)) ->
  mapM f l = Ok (map g l).
Proof.
  induction l as [|x l IH]; intros H; [reflexivity|]. cbn [mapM map].
  rewrite (H x (or_introl eq_refl)). cbn [bind]. rewrite IH; [reflexivity|].
  intros y Y. apply H. right. exact Y.
Qed.
Lemma anyM_exists {A} (f : A -> result bool) (g : A -> bool) l : (forall x, In x l -> f x = Ok (g x)) ->
  anyM f l = Ok (existsb g l).
Proof.
  induction l as [|x l IH]; intros H; [reflexivity|]. cbn [anyM existsb].
  rewrite (H x (or_introl eq_refl)). cbn [bind]. destruct (g x); cbn [orb]; [reflexivity|].
  apply IH. intros y Y. apply H. right. exact Y.
Qed.
Lemma concat_singletons {A B} (p : A -> bool) (g : A -> B) l :
  List.concat (map (fun x => if p x then [g x] else []) l) = map g (filter p l).
Proof.
  induction l as [|x l IH]; [reflexivity|]. cbn [map List.concat filter].
  destruct (p x); cbn [map app]; rewrite IH; reflexivity.
Qed.

Lemma read_inside {A} (t : tensor A) idx : List.length idx = List.length (dims t) ->
  inside idx (dims t) = true -> read t idx = Ok (elem t idx).
Proof. intros H G. unfold read. rewrite H, Nat.eqb_refl, G. reflexivity. Qed.

Ltac inside_solve :=
  cbn [inside]; repeat (rewrite (proj2 (Nat.ltb_lt _ _)) by lia); reflexivity.

(** ** One element *)

Section Element.
Variables (inp : motion_inputs) (sz : sizes).
Variable i : nat.

Definition add_track' (acc : list track * list (Z * Z)) (j : nat) : list track * list (Z * Z) :=
  let '(tracks, index) := acc in
  if tracked inp sz i j
  then (tracks ++ [track_of inp sz i j],
        update Z.eqb 0 (Z.of_nat j) (fun _ => Z.of_nat (List.length tracks)) index)
  else acc.

Lemma tracks_fold (T : list track) a : (a <= n_agents sz)%nat ->
  exists index, fold_left add_track' (seq 0 a) (T, [])
    = (T ++ map (track_of inp sz i) (filter (tracked inp sz i) (seq 0 a)), index)
    /\ forall j, get Z.eqb 0 (Z.of_nat j) index
         = if (j <? a)%nat then Z.of_nat (position inp sz (List.length T) i j) else 0.
Proof.
  induction a as [|a IH]; intros Ha.
  - exists []. cbn. rewrite app_nil_r. split; [reflexivity|intros j; reflexivity].
  - destruct IH as (index & E & G); [lia|]. rewrite seq_S, fold_left_app, E. cbn [fold_left plus Nat.add].
    unfold add_track'. rewrite filter_app. cbn [filter]. destruct (tracked inp sz i a) eqn:V.
    + eexists. split; [rewrite map_app; cbn [map]; rewrite <- app_assoc; reflexivity|].
      intros j. rewrite (get_update _ _ _ _ _ eq_test_Z).
      destruct (Z.of_nat a =? Z.of_nat j) eqn:J.
      * apply Z.eqb_eq in J. assert (a = j) by lia. subst j.
        rewrite (proj2 (Nat.ltb_lt a (S a))) by lia. unfold position. rewrite V, app_length, map_length.
        reflexivity.
      * apply Z.eqb_neq in J. rewrite G. destruct (j <? a)%nat eqn:L.
        -- apply Nat.ltb_lt in L. rewrite (proj2 (Nat.ltb_lt j (S a))) by lia. reflexivity.
        -- apply Nat.ltb_ge in L. rewrite (proj2 (Nat.ltb_ge j (S a))) by lia. reflexivity.
    + exists index. split; [rewrite app_nil_r; reflexivity|]. intros j. rewrite G.
      destruct (j <? a)%nat eqn:L.
      * apply Nat.ltb_lt in L. rewrite (proj2 (Nat.ltb_lt j (S a))) by lia. reflexivity.
      * apply Nat.ltb_ge in L. destruct (Nat.eq_dec j a) as [->|J].
        -- rewrite (proj2 (Nat.ltb_lt a (S a))) by lia. unfold position. rewrite V. reflexivity.
        -- rewrite (proj2 (Nat.ltb_ge j (S a))) by lia. reflexivity.
Qed.

Lemma position_nth (T : list track) j : (j < n_agents sz)%nat -> tracked inp sz i j = true ->
  nth_error (T ++ map (track_of inp sz i) (tracked_agents inp sz i)) (position inp sz (List.length T) i j)
  = Some (track_of inp sz i j).
Proof.
  intros Hj V. unfold position. rewrite V. rewrite nth_error_app2 by lia.
  replace (List.length T + List.length (filter (tracked inp sz i) (seq 0 j)) - List.length T)%nat
    with (List.length (filter (tracked inp sz i) (seq 0 j))) by lia.
  unfold tracked_agents. replace (n_agents sz) with (j + S (n_agents sz - S j))%nat by lia.
  rewrite seq_app, filter_app, map_app. cbn [seq filter Nat.add]. rewrite V. cbn [map].
  rewrite nth_error_app2 by (rewrite map_length; lia). rewrite map_length, Nat.sub_diag. reflexivity.
Qed.

Lemma pairs_in m n : In (m, n) (pairs inp sz i) <-> (m < n_groups sz)%nat /\ In n (masked inp sz i m).
Proof.
  unfold pairs. rewrite in_flat_map. split.
  - intros (m0 & M & I). apply in_map_iff in I. destruct I as (n0 & E & I). apply pair_equal_spec in E.
    destruct E as [-> ->]. apply in_seq in M. split; [lia|exact I].
  - intros [M I]. exists m. split; [apply in_seq; lia|]. apply in_map_iff. exists n. split; [reflexivity|exact I].
Qed.
Variables (lastc : nat).
Hypothesis D1 : dims (pred_trajectory inp)
  = [n_batch sz; n_groups sz; n_top sz; n_per_group sz; n_pred_steps sz; lastc].
Hypothesis D2 : dims (pred_score inp) = [n_batch sz; n_groups sz; n_top sz].
Hypothesis D3 : dims (gt_trajectory inp) = [n_batch sz; n_agents sz; n_gt_steps sz; 7%nat].
Hypothesis D4 : dims (gt_is_valid inp) = [n_batch sz; n_agents sz; n_gt_steps sz].
Hypothesis D5 : dims (pred_gt_indices inp) = [n_batch sz; n_groups sz; n_per_group sz].
Hypothesis D6 : dims (pred_gt_indices_mask inp) = [n_batch sz; n_groups sz; n_per_group sz].
Hypothesis D7 : dims (m_object_type inp) = [n_batch sz; n_agents sz].
Hypothesis D8 : dims (m_object_id inp) = [n_batch sz; n_agents sz].
Hypothesis D9 : dims (m_scenario_id inp) = [n_batch sz].
Hypothesis Dc : (2 <= lastc)%nat.
Hypothesis Hi : (i < n_batch sz)%nat.

Lemma read_state j t : (j < n_agents sz)%nat -> (t < n_gt_steps sz)%nat ->
  parse_state inp i j t
  = Ok (let g c := elem (gt_trajectory inp) [i; j; t; c] in
        {| s_x := g 0%nat; s_y := g 1%nat; s_length := g 2%nat; s_width := g 3%nat;
           s_heading := g 4%nat; s_vx := g 5%nat; s_vy := g 6%nat;
           s_valid := elem (gt_is_valid inp) [i; j; t] |}).
Proof.
  intros Hj Ht. unfold parse_state. cbv zeta.
  rewrite !(read_inside (gt_trajectory inp)) by (rewrite D3; first [reflexivity|inside_solve]).
  rewrite (read_inside (gt_is_valid inp)) by (rewrite D4; first [reflexivity|inside_solve]).
  reflexivity.
Qed.

Lemma add_track_ok acc j : (j < n_agents sz)%nat -> add_track inp sz i acc j = Ok (add_track' acc j).
Proof.
  intros Hj. destruct acc as [tracks index]. unfold add_track, add_track'.
  rewrite (read_inside (m_object_id inp)) by (rewrite D8; first [reflexivity|inside_solve]). cbn [bind].
  rewrite (anyM_exists _ (fun t => elem (gt_is_valid inp) [i; j; t])).
  2:{ intros t T. apply in_seq in T. apply read_inside; rewrite D4; [reflexivity|inside_solve]. }
  cbn [bind]. fold (tracked inp sz i j). destruct (tracked inp sz i j); [|reflexivity].
  rewrite (read_inside (m_object_type inp)) by (rewrite D7; first [reflexivity|inside_solve]). cbn [bind].
  rewrite (mapM_map _ (fun t => let g c := elem (gt_trajectory inp) [i; j; t; c] in
        {| s_x := g 0%nat; s_y := g 1%nat; s_length := g 2%nat; s_width := g 3%nat;
           s_heading := g 4%nat; s_vx := g 5%nat; s_vy := g 6%nat;
           s_valid := elem (gt_is_valid inp) [i; j; t] |})).
  - reflexivity.
  - intros t T. apply in_seq in T. apply read_state; lia.
Qed.

(** The state after the agent loop. *)
Variable T : list track.
Variable index : list (Z * Z).
Notation tracks := (T ++ map (track_of inp sz i) (tracked_agents inp sz i)).
Hypothesis Hindex : forall j, get Z.eqb 0 (Z.of_nat j) index
         = if (j <? n_agents sz)%nat then Z.of_nat (position inp sz (List.length T) i j) else 0.

Definition pair_ok (m n : nat) : Prop :=
  let gt := elem (pred_gt_indices inp) [i; m; n] in
  0 <= gt < Z.of_nat (n_agents sz) /\ tracks <> [].

Lemma attributed_nth j : (j < n_agents sz)%nat -> tracks <> [] ->
  exists t, nth_error tracks (position inp sz (List.length T) i j) = Some t
    /\ t_id t = attributed inp sz tracks i j.
Proof.
  intros Hj Hn. unfold attributed. destruct (tracked inp sz i j) eqn:V.
  - exists (track_of inp sz i j). split; [apply position_nth; assumption|reflexivity].
  - unfold position. rewrite V. destruct tracks as [|t l]; [contradiction|]. exists t. split; reflexivity.
Qed.

Lemma track_index_ok m n : (m < n_groups sz)%nat -> (n < n_per_group sz)%nat -> pair_ok m n ->
  exists t, track_index inp sz tracks index i m n
    = Ok (Z.of_nat (position inp sz (List.length T) i (gt_of inp i m n)), t)
    /\ t_id t = attributed inp sz tracks i (gt_of inp i m n).
Proof.
  intros Hm Hn [Hg Ht]. unfold track_index.
  rewrite (read_inside (pred_gt_indices inp)) by (rewrite D5; first [reflexivity|inside_solve]). cbn [bind].
  unfold gt_of. set (gt := elem (pred_gt_indices inp) [i; m; n]) in *. unfold check at 1 2.
  rewrite (proj2 (Z.leb_le 0 gt)), (proj2 (Z.ltb_lt gt _)) by lia. cbn [bind].
  assert (Hj : (Z.to_nat gt < n_agents sz)%nat) by lia.
  destruct (attributed_nth _ Hj Ht) as (t & E & A). exists t. split; [|exact A].
  assert (Gk : get Z.eqb 0 gt index = Z.of_nat (position inp sz (List.length T) i (Z.to_nat gt))).
  { replace gt with (Z.of_nat (Z.to_nat gt)) at 1 by lia. rewrite Hindex.
    rewrite (proj2 (Nat.ltb_lt _ _) Hj). reflexivity. }
  cbv zeta. rewrite Gk. unfold check.
  assert (L : (position inp sz (List.length T) i (Z.to_nat gt) < List.length tracks)%nat).
  { apply nth_error_Some. rewrite E. discriminate. }
  rewrite (proj2 (Z.leb_le 0 _)) by lia. rewrite (proj2 (Z.ltb_lt _ _)) by lia. cbn [bind].
  rewrite Nat2Z.id, E. reflexivity.
Qed.
Lemma track_index_inv m n r : (m < n_groups sz)%nat -> (n < n_per_group sz)%nat ->
  track_index inp sz tracks index i m n = Ok r -> pair_ok m n.
Proof.
  intros Hm Hn. unfold track_index.
  rewrite (read_inside (pred_gt_indices inp)) by (rewrite D5; first [reflexivity|inside_solve]). cbn [bind].
  intros E. dbind E u1 C1. dbind E u2 C2. dbind E u3 C3. dbind E u4 C4.
  unfold check in *. unfold pair_ok.
  destruct (Z.leb_spec 0 (elem (pred_gt_indices inp) [i; m; n])); [|discriminate].
  destruct (Z.ltb_spec (elem (pred_gt_indices inp) [i; m; n]) (Z.of_nat (n_agents sz))); [|discriminate].
  split; [lia|]. intros X. rewrite X in E. destruct (Z.to_nat _); discriminate.
Qed.

Lemma mask_read m n : (m < n_groups sz)%nat -> (n < n_per_group sz)%nat ->
  read (pred_gt_indices_mask inp) [i; m; n] = Ok (elem (pred_gt_indices_mask inp) [i; m; n]).
Proof. intros Hm Hn. apply read_inside; rewrite D6; [reflexivity|inside_solve]. Qed.

Definition interest_ok (m n : nat) : Prop :=
  0 <= attributed inp sz tracks i (gt_of inp i m n) < Z.of_nat (n_agents sz).
Definition interesting (m n : nat) : Z :=
  elem (m_object_id inp) [i; Z.to_nat (attributed inp sz tracks i (gt_of inp i m n))].
Definition required (m n : nat) : Z * Z :=
  (Z.of_nat (position inp sz (List.length T) i (gt_of inp i m n)), 1).

Definition require' (m : nat) (acc : list (Z * Z) * list Z * bool) (n : nat) :=
  let '(r, o, _) := acc in
  if elem (pred_gt_indices_mask inp) [i; m; n]
  then (r ++ [required m n], o ++ [interesting m n], true) else acc.

Lemma require_ok m n acc : (m < n_groups sz)%nat -> (n < n_per_group sz)%nat ->
  (elem (pred_gt_indices_mask inp) [i; m; n] = true -> pair_ok m n /\ interest_ok m n) ->
  require inp sz tracks index i m acc n = Ok (require' m acc n).
Proof.
  intros Hm Hn H. destruct acc as [[r o] v]. unfold require, require'. rewrite (mask_read m n Hm Hn). cbn [bind].
  destruct (elem (pred_gt_indices_mask inp) [i; m; n]); [|reflexivity].
  destruct (H eq_refl) as [P O]. destruct (track_index_ok m n Hm Hn P) as (t & -> & A). cbn [bind].
  rewrite A. unfold interest_ok in O. rewrite (proj2 (Z.ltb_ge _ 0)) by lia.
  rewrite (read_inside (m_object_id inp)) by (rewrite D8; first [reflexivity|inside_solve]).
  reflexivity.
Qed.
Lemma require_inv m n acc r : (m < n_groups sz)%nat -> (n < n_per_group sz)%nat ->
  require inp sz tracks index i m acc n = Ok r ->
  elem (pred_gt_indices_mask inp) [i; m; n] = true -> pair_ok m n /\ interest_ok m n.
Proof.
  intros Hm Hn E V. destruct acc as [[r0 o] v]. unfold require in E. rewrite (mask_read m n Hm Hn) in E.
  cbn [bind] in E. rewrite V in E. dbind E kt E1. pose proof (track_index_inv m n _ Hm Hn E1) as P.
  split; [exact P|]. destruct (track_index_ok m n Hm Hn P) as (t & E2 & A). rewrite E2 in E1.
  apply Ok_inj in E1. subst kt. dbind E w E3. rewrite A in E3. unfold interest_ok.
  destruct (Z.ltb_spec (attributed inp sz tracks i (gt_of inp i m n)) 0) as [L|L]; [discriminate|].
  unfold read in E3. rewrite D8 in E3. cbn [List.length Nat.eqb negb inside] in E3.
  rewrite (proj2 (Nat.ltb_lt _ _) Hi) in E3. cbn [andb] in E3. rewrite andb_true_r in E3.
  destruct (Nat.ltb_spec (Z.to_nat (attributed inp sz tracks i (gt_of inp i m n))) (n_agents sz)); [|discriminate].
  lia.
Qed.

Lemma require_fold m l : forall r o v,
  fold_left (require' m) l (r, o, v)
  = (r ++ map (required m) (filter (fun n => elem (pred_gt_indices_mask inp) [i; m; n]) l),
     o ++ map (interesting m) (filter (fun n => elem (pred_gt_indices_mask inp) [i; m; n]) l),
     match filter (fun n => elem (pred_gt_indices_mask inp) [i; m; n]) l with [] => v | _ => true end).
Proof.
  induction l as [|n l IH]; intros r o v; cbn [fold_left filter map]; [rewrite !app_nil_r; reflexivity|].
  unfold require' at 2. destruct (elem (pred_gt_indices_mask inp) [i; m; n]).
  - rewrite IH. cbn [map]. rewrite <- !app_assoc. cbn [app].
    destruct (filter (fun n => elem (pred_gt_indices_mask inp) [i; m; n]) l); reflexivity.
  - apply IH.
Qed.

Definition group_valid (m : nat) : bool := match masked inp sz i m with [] => false | _ => true end.
Definition require_group' (acc : list (Z * Z) * list Z * list bool) (m : nat) :=
  let '(r, o, v) := acc in
  (r ++ map (required m) (masked inp sz i m), o ++ map (interesting m) (masked inp sz i m),
   v ++ [group_valid m]).

Lemma require_group_ok m acc : (m < n_groups sz)%nat ->
  (forall n, In n (masked inp sz i m) -> pair_ok m n /\ interest_ok m n) ->
  require_group inp sz tracks index i acc m = Ok (require_group' acc m).
Proof.
  intros Hm H. destruct acc as [[r o] v]. unfold require_group, require_group'.
  rewrite (foldM_fold _ (require' m)).
  - rewrite require_fold. cbn [bind]. unfold group_valid, masked. reflexivity.
  - intros n acc I. apply in_seq in I. apply require_ok; [exact Hm|lia|]. intros V. apply H.
    apply filter_In. split; [apply in_seq; lia|exact V].
Qed.
Lemma require_group_inv m acc r : (m < n_groups sz)%nat ->
  require_group inp sz tracks index i acc m = Ok r ->
  forall n, In n (masked inp sz i m) -> pair_ok m n /\ interest_ok m n.
Proof.
  intros Hm E n I. destruct acc as [[r0 o] v]. unfold require_group in E. dbind E x E1.
  apply filter_In in I. destruct I as [I V].
  destruct (foldM_each _ _ _ _ E1 n I) as (s0 & s1 & E2). apply in_seq in I.
  exact (require_inv m n s0 s1 Hm ltac:(lia) E2 V).
Qed.
Lemma require_group_fold l : forall r o v,
  fold_left require_group' l (r, o, v)
  = (r ++ map (fun mn => required (fst mn) (snd mn))
            (flat_map (fun m => map (pair m) (masked inp sz i m)) l),
     o ++ map (fun mn => interesting (fst mn) (snd mn))
            (flat_map (fun m => map (pair m) (masked inp sz i m)) l),
     v ++ map group_valid l).
Proof.
  induction l as [|m l IH]; intros r o v; cbn [fold_left flat_map map]; [rewrite !app_nil_r; reflexivity|].
  unfold require_group' at 2. rewrite IH, !map_app, !map_map, <- !app_assoc. reflexivity.
Qed.

Definition trajectory_of (m k n : nat) : trajectory :=
  {| tj_object := attributed inp sz tracks i (gt_of inp i m n);
     tj_x := map (fun s => elem (pred_trajectory inp) [i; m; k; n; s; 0%nat]) (seq 0 (n_pred_steps sz));
     tj_y := map (fun s => elem (pred_trajectory inp) [i; m; k; n; s; 1%nat]) (seq 0 (n_pred_steps sz)) |}.
Definition joint_of (m k : nat) : joint :=
  {| jt_confidence := elem (pred_score inp) [i; m; k];
     jt_trajectories := map (trajectory_of m k) (masked inp sz i m) |}.

Lemma trajectory_ok m k n : (m < n_groups sz)%nat -> (k < n_top sz)%nat -> (n < n_per_group sz)%nat ->
  (elem (pred_gt_indices_mask inp) [i; m; n] = true -> pair_ok m n) ->
  parse_trajectory inp sz tracks index i m k n
  = Ok (if elem (pred_gt_indices_mask inp) [i; m; n] then [trajectory_of m k n] else []).
Proof.
  intros Hm Hk Hn H. unfold parse_trajectory. rewrite (mask_read m n Hm Hn). cbn [bind].
  destruct (elem (pred_gt_indices_mask inp) [i; m; n]); [|reflexivity].
  destruct (track_index_ok m n Hm Hn (H eq_refl)) as (t & -> & A). cbn [bind].
  rewrite (mapM_map _ (fun s => elem (pred_trajectory inp) [i; m; k; n; s; 0%nat])).
  2:{ intros s S. apply in_seq in S. apply read_inside; rewrite D1; [reflexivity|inside_solve]. }
  cbn [bind].
  rewrite (mapM_map _ (fun s => elem (pred_trajectory inp) [i; m; k; n; s; 1%nat])).
  2:{ intros s S. apply in_seq in S. apply read_inside; rewrite D1; [reflexivity|inside_solve]. }
  cbn [bind]. rewrite A. reflexivity.
Qed.
Lemma joint_ok m k : (m < n_groups sz)%nat -> (k < n_top sz)%nat ->
  (forall n, In n (masked inp sz i m) -> pair_ok m n) ->
  parse_joint inp sz tracks index i m k = Ok (joint_of m k).
Proof.
  intros Hm Hk H. unfold parse_joint.
  rewrite (read_inside (pred_score inp)) by (rewrite D2; first [reflexivity|inside_solve]). cbn [bind].
  rewrite (mapM_map _ (fun n => if elem (pred_gt_indices_mask inp) [i; m; n] then [trajectory_of m k n] else [])).
  - cbn [bind]. rewrite concat_singletons. reflexivity.
  - intros n I. apply in_seq in I. apply trajectory_ok; [exact Hm|exact Hk|lia|].
    intros V. apply H. apply filter_In. split; [apply in_seq; lia|exact V].
Qed.
Lemma group_ok m : (m < n_groups sz)%nat -> (forall n, In n (masked inp sz i m) -> pair_ok m n) ->
  parse_group inp sz tracks index i (map group_valid (seq 0 (n_groups sz))) m
  = Ok (if group_valid m then [map (joint_of m) (seq 0 (n_top sz))] else []).
Proof.
  intros Hm H. unfold parse_group. rewrite nth_map_seq by exact Hm.
  destruct (group_valid m); [|reflexivity].
  rewrite (mapM_map _ (joint_of m)); [reflexivity|].
  intros k I. apply in_seq in I. apply joint_ok; [exact Hm|lia|exact H].
Qed.

End Element.

(** ** Whole elements *)

Lemma element_value inp sz i p : motion_shapes inp sz -> wide inp -> (i < n_batch sz)%nat ->
  element_ok inp sz i p ->
  parse_element inp sz i (elem (m_scenario_id inp) [i]) p = Ok (extended inp sz i p).
Proof.
  intros ((c & D1) & D2 & D3 & D4 & D5 & D6 & D7 & D8 & D9) (b' & m' & k' & n' & t' & c' & W & Wc) Hi H.
  rewrite D1 in W. assert (c = c') by congruence. subst c'. clear W.
  destruct p as [sc pr]. unfold parse_element. unfold element_ok in H. cbn [fst] in H.
  rewrite (foldM_fold _ (add_track' inp sz i)).
  2:{ intros j acc I. apply in_seq in I. eapply add_track_ok; try eassumption. lia. }
  destruct (tracks_fold inp sz i (sc_tracks sc) (n_agents sz) (le_n _)) as (index & E & G).
  rewrite E. cbn [bind]. fold (tracked_agents inp sz i).
  assert (P : forall m n, (m < n_groups sz)%nat -> In n (masked inp sz i m) ->
     pair_ok inp sz i (sc_tracks sc) m n /\ interest_ok inp sz i (sc_tracks sc) m n).
  { intros m n M N. destruct (H (m, n)) as (A & B & C); [apply pairs_in; split; assumption|].
    split; [split; assumption|exact C]. }
  rewrite (foldM_fold _ (require_group' inp sz i (sc_tracks sc))).
  2:{ intros m acc I. apply in_seq in I. eapply require_group_ok; try eassumption; [lia|].
      intros n N. apply P; [lia|exact N]. }
  rewrite require_group_fold. cbn [bind app].
  rewrite (mapM_map _ (fun m => if group_valid inp sz i m
      then [map (joint_of inp sz i (sc_tracks sc) m) (seq 0 (n_top sz))] else [])).
  2:{ intros m I. apply in_seq in I. eapply group_ok; try eassumption; [lia|].
      intros n N. apply P; [lia|exact N]. }
  cbn [bind]. rewrite concat_singletons. reflexivity.
Qed.

Lemma element_inv inp sz i p r : motion_shapes inp sz -> wide inp -> (i < n_batch sz)%nat ->
  parse_element inp sz i (elem (m_scenario_id inp) [i]) p = Ok r -> element_ok inp sz i p.
Proof.
  intros ((c & D1) & D2 & D3 & D4 & D5 & D6 & D7 & D8 & D9) (b' & m' & k' & n' & t' & c' & W & Wc) Hi H.
  rewrite D1 in W. assert (c = c') by congruence. subst c'. clear W.
  destruct p as [sc pr]. unfold parse_element in H. unfold element_ok. cbn [fst].
  rewrite (foldM_fold _ (add_track' inp sz i)) in H.
  2:{ intros j acc I. apply in_seq in I. eapply add_track_ok; try eassumption. lia. }
  destruct (tracks_fold inp sz i (sc_tracks sc) (n_agents sz) (le_n _)) as (index & E & G).
  rewrite E in H. cbn [bind] in H. fold (tracked_agents inp sz i) in H.
  dbind H x H1. intros [m n] I. apply pairs_in in I. destruct I as [M N]. cbn [fst snd].
  destruct (foldM_each _ _ _ _ H1 m) as (s0 & s1 & E2); [apply in_seq; lia|].
  assert (P : pair_ok inp sz i (sc_tracks sc) m n /\ interest_ok inp sz i (sc_tracks sc) m n).
  { eapply require_group_inv; eassumption. }
  destruct P as [[P1 P2] P3]. split; [exact P1|]. split; [exact P2|exact P3].
Qed.

(** ** The batch *)

Definition parse_step inp sz (results : list (string * parsed)) (i : nat) :=
  do sid <- read (m_scenario_id inp) [i];
  do p <- parse_element inp sz i sid (get String.eqb empty_parsed sid results);
  Ok (update String.eqb empty_parsed sid (fun _ => p) results).

Lemma parse_motion_eq inp sz : motion_sizes inp = Ok sz ->
  parse_motion inp = foldM (parse_step inp sz) (seq 0 (n_batch sz)) [].
Proof. intros H. unfold parse_motion. rewrite H. reflexivity. Qed.

Definition state_ok inp sz (b : nat) (m : list (string * parsed)) : Prop :=
  NoDup (map fst m)
  /\ (forall s, In s (map fst m) <-> exists i, (i < b)%nat /\ elem (m_scenario_id inp) [i] = s)
  /\ (forall s, get String.eqb empty_parsed s m = scenario_parsed inp sz b s).

Lemma scenario_parsed_S inp sz b s :
  scenario_parsed inp sz (S b) s
  = if String.eqb (elem (m_scenario_id inp) [b]) s then extended inp sz b (scenario_parsed inp sz b s)
    else scenario_parsed inp sz b s.
Proof.
  unfold scenario_parsed, elements. rewrite seq_S, filter_app. cbn [filter Nat.add].
  destruct (String.eqb _ s); [rewrite fold_left_app; reflexivity|rewrite app_nil_r; reflexivity].
Qed.

Lemma batch_prefix inp sz : motion_shapes inp sz -> wide inp -> forall b, (b <= n_batch sz)%nat ->
  ((exists m, foldM (parse_step inp sz) (seq 0 b) [] = Ok m)
   <-> forall i, (i < b)%nat -> element_ok inp sz i (scenario_parsed inp sz i (elem (m_scenario_id inp) [i])))
  /\ forall m, foldM (parse_step inp sz) (seq 0 b) [] = Ok m -> state_ok inp sz b m.
Proof.
  intros S W. pose proof S as (_ & _ & _ & _ & _ & _ & _ & _ & D9).
  induction b as [|b IH]; intros Hb.
  - split.
    + split; [intros _ i Hi; lia|intros _; exists []; reflexivity].
    + intros m E. apply Ok_inj in E. subst m. split; [constructor|]. split.
      * intros s. split; [intros []|intros (i & Hi & _); lia].
      * intros s. reflexivity.
  - destruct IH as [IH1 IH2]; [lia|]. rewrite seq_S, foldM_app. cbn [foldM Nat.add].
    assert (R : read (m_scenario_id inp) [b] = Ok (elem (m_scenario_id inp) [b])) by (apply (read1 _ _ _ D9); lia).
    split; [split|].
    + intros (m & E). dbind E m0 E0. destruct (IH2 m0 E0) as (_ & _ & G).
      assert (P : forall i, (i < b)%nat ->
        element_ok inp sz i (scenario_parsed inp sz i (elem (m_scenario_id inp) [i]))).
      { apply IH1. exists m0. exact E0. }
      intros i Hi. destruct (Nat.eq_dec i b) as [->|]; [|apply P; lia].
      dbind E m1 E1. unfold parse_step in E1. rewrite R in E1. cbn [bind] in E1. dbind E1 p E2.
      rewrite G in E2. eapply element_inv; [exact S|exact W| |exact E2]. lia.
    + intros H. destruct (proj2 IH1) as (m0 & E0); [intros i Hi; apply H; lia|].
      destruct (IH2 m0 E0) as (_ & _ & G). rewrite E0. cbn [bind]. unfold parse_step. rewrite R. cbn [bind].
      rewrite G, (element_value inp sz b _ S W); [|lia|apply H; lia]. eexists. reflexivity.
    + intros m E. dbind E m0 E0. destruct (IH2 m0 E0) as (N & Kk & G).
      dbind E m1 E1. apply Ok_inj in E. subst m1. unfold parse_step in E1. rewrite R in E1. cbn [bind] in E1.
      dbind E1 p E2. apply Ok_inj in E1. subst m. rewrite G in E2.
      assert (O : element_ok inp sz b (scenario_parsed inp sz b (elem (m_scenario_id inp) [b]))).
      { eapply element_inv; [exact S|exact W| |exact E2]. lia. }
      rewrite (element_value inp sz b _ S W) in E2; [|lia|exact O]. apply Ok_inj in E2. subst p.
      split; [apply nodup_update; [exact eq_test_string|exact N]|]. split.
      * intros s. rewrite (keys_update _ _ _ _ _ eq_test_string), Kk. split.
        -- intros [(i & Hi & F)| ->]; [exists i; split; [lia|exact F]|exists b; split; [lia|reflexivity]].
        -- intros (i & Hi & F). destruct (Nat.eq_dec i b) as [->|]; [right; symmetry; exact F|].
           left. exists i. split; [lia|exact F].
      * intros s. rewrite (get_update _ _ _ _ _ eq_test_string), scenario_parsed_S, G.
        destruct (String.eqb (elem (m_scenario_id inp) [b]) s) eqn:Es; [|reflexivity].
        apply String.eqb_eq in Es. subst s. reflexivity.
Qed.

Lemma motion_succeeds inp sz : motion_shapes inp sz -> wide inp ->
  ((exists m, parse_motion inp = Ok m)
   <-> forall i, (i < n_batch sz)%nat ->
         element_ok inp sz i (scenario_parsed inp sz i (elem (m_scenario_id inp) [i]))).
Proof.
  intros S W. rewrite (parse_motion_eq _ _ (proj2 (motion_sizes_iff inp sz) S)).
  exact (proj1 (batch_prefix inp sz S W _ (le_n _))).
Qed.
Lemma motion_shaped inp m : parse_motion inp = Ok m -> exists sz, motion_shapes inp sz.
Proof.
  intros E. unfold parse_motion in E. dbind E sz E1. exists sz. apply motion_sizes_iff. exact E1.
Qed.
Lemma motion_content inp sz m : motion_shapes inp sz -> wide inp -> parse_motion inp = Ok m ->
  NoDup (map fst m)
  /\ forall s p, holds m s p <-> elements inp (n_batch sz) s <> [] /\ p = scenario_parsed inp sz (n_batch sz) s.
Proof.
  intros S W E. rewrite (parse_motion_eq _ _ (proj2 (motion_sizes_iff inp sz) S)) in E.
  destruct (proj2 (batch_prefix inp sz S W _ (le_n _)) m E) as (N & Kk & G). split; [exact N|].
  intros s p. unfold holds.
  assert (X : elements inp (n_batch sz) s <> [] <-> In s (map fst m)).
  { rewrite Kk. unfold elements. split.
    - intros H. destruct (filter _ _) as [|i l] eqn:F; [contradiction|].
      assert (I : In i (filter (fun i => String.eqb (elem (m_scenario_id inp) [i]) s) (seq 0 (n_batch sz))))
        by (rewrite F; left; reflexivity).
      apply filter_In in I. destruct I as [I J]. apply in_seq in I. apply String.eqb_eq in J.
      exists i. split; [lia|exact J].
    - intros (i & Hi & F) Y.
      assert (I : In i (filter (fun i => String.eqb (elem (m_scenario_id inp) [i]) s) (seq 0 (n_batch sz)))).
      { apply filter_In. split; [apply in_seq; lia|apply String.eqb_eq; exact F]. }
      rewrite Y in I. destruct I. }
  rewrite X, <- G. split.
  - intros I. split.
    + apply in_map_iff. exists (s, p). split; [reflexivity|exact I].
    + symmetry. exact (get_unique _ _ _ eq_test_string _ _ N I).
  - intros [I ->]. exact (get_member _ _ _ eq_test_string _ I).
Qed.

Lemma motion_ids_fail inp sz i m n j : motion_shapes inp sz -> wide inp ->
  (i < n_batch sz)%nat -> (m < n_groups sz)%nat -> (n < n_per_group sz)%nat ->
  elem (pred_gt_indices_mask inp) [i; m; n] = true ->
  elem (pred_gt_indices inp) [i; m; n] = Z.of_nat j -> tracked inp sz i j = true ->
  ~ (0 <= elem (m_object_id inp) [i; j] < Z.of_nat (n_agents sz)) ->
  exists e, parse_motion inp = Err e.
Proof.
  intros S W Hi Hm Hn Hk Hg Hv Hid. destruct (parse_motion inp) as [r|e] eqn:E; [|exists e; reflexivity].
  exfalso. pose proof (proj1 (motion_succeeds inp sz S W) (ex_intro _ r E) i Hi (m, n)) as H.
  cbn [fst snd] in H. destruct H as (_ & _ & H).
  - apply pairs_in. split; [exact Hm|]. unfold masked. apply filter_In. split; [apply in_seq; lia|exact Hk].
  - rewrite Hg, Nat2Z.id in H. unfold attributed in H. rewrite Hv in H. contradiction.
Qed.
