From Coq Require Import Reals List Arith Lra Lia Bool ZArith.
From Verif Require Import Base ResultLib ListLib GeomModel GeomBase WayModel WayProofs WayFlow OccModel OccSpec OccGeom OccRender.
Import ListNotations.
Open Scope R_scope.

Lemma flat_map_numbered {A B} (g : A -> list B) l : flat_map (fun na => g (snd na)) (numbered l) = flat_map g l.
Proof.
  unfold numbered. generalize 0%nat. induction l as [|x l IH]; intro n; [reflexivity|]. cbn [length seq combine flat_map snd]. now rewrite IH.
Qed.
Lemma flat_map_pick {A B} (f : nat * A -> list B) l t : (forall n x, n <> t -> f (n, x) = []) ->
  flat_map f (numbered l) = match nth_error l t with Some x => f (t, x) | None => [] end.
Proof.
  intro H. unfold numbered.
  assert (G : forall s, flat_map f (combine (seq s (length l)) l) =
    if Nat.ltb t s then [] else match nth_error l (t - s) with Some x => f (t, x) | None => [] end).
  { induction l as [|x l IH]; intro s; cbn [length seq combine flat_map].
    - destruct (Nat.ltb t s); [reflexivity|]. now destruct (t - s)%nat.
    - rewrite IH. destruct (Nat.ltb_spec t s) as [L|L].
      + rewrite H by lia. destruct (Nat.ltb_spec t (S s)); [reflexivity|lia].
      + destruct (Nat.eq_dec t s) as [->|D].
        * rewrite Nat.sub_diag. cbn [nth_error]. destruct (Nat.ltb_spec s (S s)); [apply app_nil_r|lia].
        * rewrite H by lia. destruct (Nat.ltb_spec t (S s)); [lia|]. replace (t - s)%nat with (S (t - S s)) by lia. reflexivity. }
  rewrite (G 0%nat). cbn [Nat.ltb]. replace (t - 0)%nat with t by lia. destruct (Nat.ltb_spec t 0); [lia|reflexivity].
Qed.
Lemma filter_flat_map {A B} p (f : A -> list B) l : filter p (flat_map f l) = flat_map (fun a => filter p (f a)) l.
Proof. induction l as [|x l IH]; [reflexivity|]. cbn. now rewrite filter_app, IH. Qed.
Lemma filter_filter {A} p q (l : list A) : filter p (filter q l) = filter (fun x => q x && p x) l.
Proof.
  induction l as [|x l IH]; [reflexivity|]. cbn. destruct (q x); cbn [andb]; [cbn; destruct (p x)|]; now rewrite IH.
Qed.
Lemma combine_map2 {A B C} (f : A -> B) (g : A -> C) l : combine (map f l) (map g l) = map (fun a => (f a, g a)) l.
Proof. induction l as [|x l IH]; [reflexivity|]. cbn. now rewrite IH. Qed.

Lemma filter_nil_iff {T} (f : T -> bool) l : filter f l = [] <-> forall x, In x l -> f x = false.
Proof.
  split.
  - intros E x I. destruct (f x) eqn:F; [|reflexivity]. assert (J : In x (filter f l)) by (apply filter_In; auto). rewrite E in J. destruct J.
  - induction l as [|x l IH]; intro H; [reflexivity|]. cbn. rewrite (H x (or_introl eq_refl)). apply IH. intros y I. apply H. now right.
Qed.
Lemma mapM_map {A B C} (f : B -> result C) (g : A -> B) l : mapM f (map g l) = mapM (fun a => f (g a)) l.
Proof. induction l as [|x l IH]; [reflexivity|]. cbn. now rewrite IH. Qed.

Lemma numbered_map {A B} (f : A -> B) l : numbered (map f l) = map (fun na => (fst na, f (snd na))) (numbered l).
Proof.
  unfold numbered. generalize 0%nat. induction l as [|x l IH]; intro n; [reflexivity|]. cbn [length seq combine map fst snd]. now rewrite IH.
Qed.

Section Flow.
Variables (c : render_config) (sc : scene) (ts : list times) (obs occ : bool) (size : nat).
Hypothesis Sampled : sampled c.
Hypothesis Complete : complete c ts sc.
Hypothesis Requested : In Future ts -> obs = true \/ occ = true.
Hypothesis Waypoints : (0 < num_waypoints (task c))%nat.
Hypothesis Size : (num_future_steps (task c) / num_waypoints (task c) = size)%nat.
Hypothesis Size_pos : (0 < size <= num_steps c ts)%nat.

Definition step_of (a : agent) (s : state) : bool * list pixel := (valid s && keptb ts obs occ a, map (pix c sc s) (cells c)).
Definition made_moves : list flow_row :=
  map (fun a =>
    {| flow_type := agent_type a;
       flow_steps := map (fun ba => (fst (snd ba) && fst (fst ba), combine (snd (fst ba)) (snd (snd ba))))
         (combine (firstn (num_steps c ts - size) (map (step_of a) (stack ts a))) (skipn size (map (step_of a) (stack ts a)))) |}) (agents sc).
Lemma moves_ok : flow_rows size (made_rows c sc ts obs occ) = Ok made_moves.
Proof.
  unfold flow_rows, made_rows, made_moves. rewrite mapM_map. apply mapM_ok. intros a I. cbn [row_steps row_type].
  assert (L : length (map (step_of a) (stack ts a)) = num_steps c ts) by (rewrite map_length, stack_states; now apply Complete).
  change (map (fun s : state => (valid s && keptb ts obs occ a, map (pix c sc s) (cells c))) (stack ts a)) with (map (step_of a) (stack ts a)).
  unfold slice_to, slice_from. rewrite L, bound_neg, bound_pos by lia. rewrite firstn_length, skipn_length, L.
  destruct (Nat.eqb_spec (Nat.min (num_steps c ts - size) (num_steps c ts)) (num_steps c ts - size)) as [_|N]; [reflexivity|lia].
Qed.

Lemma nth_error_combine {A B} (l : list A) (l' : list B) n :
  nth_error (combine l l') n = match nth_error l n, nth_error l' n with Some a, Some b => Some (a, b) | _, _ => None end.
Proof.
  revert l' n. induction l as [|x l IH]; intros l' n; [destruct n; reflexivity|].
  destruct l' as [|y l']; [destruct n; cbn; [reflexivity|now destruct (nth_error l n)]|]. destruct n; [reflexivity|]. cbn. apply IH.
Qed.
Lemma nth_error_first {A} (l : list A) m n : (n < m)%nat -> nth_error (firstn m l) n = nth_error l n.
Proof. revert l n. induction m as [|m IH]; intros l n H; [lia|]. destruct l; [reflexivity|]. destruct n; [reflexivity|]. cbn. apply IH. lia. Qed.
Lemma nth_error_first_none {A} (l : list A) m n : (m <= n)%nat -> nth_error (firstn m l) n = None.
Proof. intro H. apply nth_error_None. rewrite firstn_length. lia. Qed.
Lemma nth_error_skip {A} (l : list A) m n : nth_error (skipn m l) n = nth_error l (m + n).
Proof. revert l. induction m as [|m IH]; intro l; [reflexivity|]. destruct l; [destruct n; reflexivity|]. apply IH. Qed.

(** The steps of an agent's moves. *)
Lemma move_step a t : In a (agents sc) ->
  nth_error (combine (firstn (num_steps c ts - size) (map (step_of a) (stack ts a))) (skipn size (map (step_of a) (stack ts a)))) t =
  match nth_error (states ts a) t, nth_error (states ts a) (t + size) with
  | Some b, Some s => Some (step_of a b, step_of a s) | _, _ => None end.
Proof.
  intro I. rewrite nth_error_combine, nth_error_skip, !nth_error_map, stack_states, (Nat.add_comm size t).
  pose proof (Complete a I) as L.
  destruct (le_lt_dec (num_steps c ts - size) t) as [H|H].
  - rewrite nth_error_first_none by exact H.
    replace (nth_error (states ts a) (t + size)) with (@None state) by (symmetry; apply nth_error_None; lia).
    now destruct (nth_error (states ts a) t).
  - rewrite nth_error_first by exact H. rewrite nth_error_map.
    destruct (nth_error (states ts a) t), (nth_error (states ts a) (t + size)); reflexivity.
Qed.

(** The samples that land in a cell, with where they come from. *)
Definition lands (r q : Z) (s : state) (ij : nat * nat) : bool := Z.eqb (fst (pix c sc s ij)) q && Z.eqb (snd (pix c sc s ij)) r.
Lemma lands_iff r q s ij : lands r q s ij = true <-> pix c sc s ij = (q, r).
Proof.
  unfold lands. rewrite andb_true_iff, !Z.eqb_eq. destruct (pix c sc s ij). cbn. split; [intros (-> & ->); reflexivity|intro E; injection E; auto].
Qed.
Definition from_to (b s : state) (ij : nat * nat) : Z * Z :=
  ((fst (pix c sc b ij) - fst (pix c sc s ij))%Z, (snd (pix c sc b ij) - snd (pix c sc s ij))%Z).
Definition agent_landings (class r q : Z) (t : nat) (n : nat) (a : agent) : list (sample_id * (Z * Z)) :=
  match nth_error (states ts a) t, nth_error (states ts a) (t + size) with
  | Some b, Some s =>
      if (valid s && keptb ts obs occ a) && (valid b && keptb ts obs occ a) && Z.eqb (agent_type a) class then
        map (fun ij => ({| of_agent := n; at_i := fst ij; at_j := snd ij |}, from_to b s ij)) (filter (lands r q s) (cells c))
      else []
  | _, _ => []
  end.
Definition landings (class r q : Z) (t : nat) : list (sample_id * (Z * Z)) :=
  flat_map (fun na => agent_landings class r q t (fst na) (snd na)) (numbered (agents sc)).

Lemma points_landings class r q t : in_grid c r q ->
  map snd (filter (fun p => same_place (fst p) (r, q, t)) (flow_points c class made_moves)) =
  map (fun kd => (IZR (fst (snd kd)), IZR (snd (snd kd)))) (landings class r q t).
Proof.
  intro G. unfold flow_points, landings, made_moves.
  rewrite <- (flat_map_numbered (fun a => flat_map _ (numbered (flow_steps a)))).
  rewrite numbered_map.
  rewrite flat_map_concat_map, map_map, <- flat_map_concat_map.
  rewrite filter_flat_map, !map_flat_map. apply flat_map_ext_in. intros (n, a) I. cbn [fst snd flow_type flow_steps].
  assert (A : In a (agents sc)) by (apply in_numbered in I; eapply nth_error_In; eauto).
  rewrite filter_flat_map.
  rewrite (flat_map_pick _ _ t).
  2:{ intros m x D. cbn [fst snd]. rewrite filter_map_comm.
      rewrite (proj2 (filter_nil_iff _ _)); [reflexivity|]. intros y _. cbn [fst].
      apply not_true_is_false. intro X. apply same_iff in X. congruence. }
  rewrite nth_error_map, move_step by exact A. unfold agent_landings.
  destruct (nth_error (states ts a) t) as [b|]; [|reflexivity]. destruct (nth_error (states ts a) (t + size)) as [s|]; [|reflexivity].
  cbn [option_map fst snd step_of]. rewrite combine_map2, !filter_map_comm, filter_filter. cbn [fst snd]. rewrite !map_map.
  destruct ((valid s && keptb ts obs occ a) && (valid b && keptb ts obs occ a)) eqn:V; cbn [andb].
  - destruct (Z.eqb (agent_type a) class) eqn:T.
    + rewrite map_map. cbn [fst snd]. 
      rewrite (filter_ext _ (lands r q s)); [apply map_ext; intro ij; reflexivity|].
      intro ij. rewrite !andb_true_r. apply eq_true_iff_eq. rewrite andb_true_iff, lands_iff, same_iff, fov_bounds.
      destruct (pix c sc s ij) as [u v]. cbn [fst snd]. split.
      * intros (_ & E). congruence.
      * intro E. injection E as -> ->. auto.
    + rewrite (proj2 (filter_nil_iff _ _)); [reflexivity|]. intros x _. rewrite andb_false_r. reflexivity.
  - rewrite (proj2 (filter_nil_iff _ _)); [reflexivity|]. intros x _. rewrite !andb_false_r. reflexivity.
Qed.

Lemma in_landings class r q t k d : In (k, d) (landings class r q t) <-> contributes c sc ts obs occ size class r q t k d.
Proof.
  unfold landings, contributes. rewrite in_flat_map. split.
  - intros ((n, a) & N & H). apply in_numbered in N. cbn [fst snd] in H. unfold agent_landings in H.
    destruct (nth_error (states ts a) t) as [b|] eqn:B; [|destruct H]. destruct (nth_error (states ts a) (t + size)) as [s|] eqn:Sx; [|destruct H].
    destruct ((valid s && keptb ts obs occ a) && (valid b && keptb ts obs occ a) && Z.eqb (agent_type a) class) eqn:C; [|destruct H].
    rewrite !andb_true_iff, Z.eqb_eq in C. destruct C as (((V & K) & (V' & _)) & T).
    apply in_map_iff in H. destruct H as ((i, j) & E & H). injection E as <- <-. apply filter_In in H. destruct H as (I & L).
    apply in_cells in I. apply lands_iff in L. cbn [at_i at_j of_agent fst snd]. split; [tauto|]. split; [tauto|].
    exists a, b, s. apply keptb_iff in K. repeat (split; [assumption|]). unfold displaced. split.
    + apply falls_code. exact L.
    + apply falls_code. change (pix c sc b (i, j) = (q + fst (from_to b s (i, j)), r + snd (from_to b s (i, j)))%Z).
      unfold from_to. rewrite L. cbn [fst snd]. destruct (pix c sc b (i, j)) as [u v]. cbn [fst snd]. f_equal; lia.
  - intros (I & J & a & b & s & N & T & K & B & Sx & V & V' & F & F').
    exists (of_agent k, a). split; [now apply in_numbered|]. cbn [fst snd]. unfold agent_landings. rewrite B, Sx.
    apply keptb_iff in K. rewrite V, V', K, T, Z.eqb_refl. cbn [andb].
    apply falls_code in F. apply falls_code in F'. apply in_map_iff. exists (at_i k, at_j k). split.
    + destruct k as [n i j]. cbn [of_agent at_i at_j fst snd] in *. f_equal. unfold from_to, pix. cbn [fst snd]. rewrite F, F'. cbn [fst snd].
      destruct d as [u v]. cbn [fst snd]. f_equal; lia.
    + apply filter_In. split; [now apply in_cells|]. apply lands_iff. exact F.
Qed.

Lemma nodup_landings class r q t : NoDup (map fst (landings class r q t)).
Proof.
  unfold landings, numbered. generalize 0%nat. induction (agents sc) as [|a l IH]; intro n; [constructor|].
  cbn [length seq combine flat_map fst snd]. rewrite map_app. apply nodup_app; [|apply IH|].
  - unfold agent_landings. destruct (nth_error (states ts a) t) as [b|]; [|constructor].
    destruct (nth_error (states ts a) (t + size)) as [s|]; [|constructor].
    destruct (_ && _); [|constructor]. rewrite map_map. cbn [fst].
    apply (FinFun.Injective_map_NoDup (f := fun ij : nat * nat => {| of_agent := n; at_i := fst ij; at_j := snd ij |})).
    + intros (i, j) (i', j') E. cbn [fst snd] in E. injection E as -> ->. reflexivity.
    + apply NoDup_filter, nodup_cells.
  - intros k A B.
    assert (Ka : of_agent k = n).
    { apply in_map_iff in A. destruct A as ((k', d) & E & A). cbn [fst] in E. subst k'. unfold agent_landings in A.
      destruct (nth_error (states ts a) t) as [b|]; [|destruct A]. destruct (nth_error (states ts a) (t + size)) as [s|]; [|destruct A].
      destruct (_ && _); [|destruct A]. apply in_map_iff in A. destruct A as (ij & E & _). injection E as <- _. reflexivity. }
    assert (Kb : (n < of_agent k)%nat).
    { apply in_map_iff in B. destruct B as ((k', d) & E & B). cbn [fst] in E. subst k'. apply in_flat_map in B.
      destruct B as ((m, x) & M & B). apply in_combine_l in M. apply in_seq in M. cbn [fst snd] in B. unfold agent_landings in B.
      destruct (nth_error (states ts x) t) as [b|]; [|destruct B]. destruct (nth_error (states ts x) (t + size)) as [s|]; [|destruct B].
      destruct (_ && _); [|destruct B]. apply in_map_iff in B. destruct B as (ij & E & _). injection E as <- _. cbn [of_agent]. lia. }
    lia.
Qed.

Lemma sum_IZR {A} (f : A -> Z) l : reduce_sum (map (fun a => IZR (f a)) l) = IZR (fold_right Z.add 0%Z (map f l)).
Proof.
  induction l as [|x l IH]; [reflexivity|].
  change (IZR (f x) + reduce_sum (map (fun a => IZR (f a)) l) = IZR (f x + fold_right Z.add 0 (map f l))%Z).
  now rewrite IH, plus_IZR.
Qed.

Lemma flow_class_ok class : exists g, render_flow_class c (num_steps c ts - size) made_moves class = Ok g /\
  forall r q t, in_grid c r q -> g r q t = mean_displacement (map snd (landings class r q t)).
Proof.
  unfold render_flow_class.
  assert (B : forall x, In x (flow_points c class made_moves) ->
    in_bounds (grid_height_cells c) (grid_width_cells c) (num_steps c ts - size) (fst x) = true).
  { intros x I. unfold flow_points in I. apply in_flat_map in I. destruct I as (m & M & I).
    apply in_flat_map in I. destruct I as ((n, (b, ps)) & N & I). apply in_numbered in N. apply in_map_iff in I. destruct I as (p & <- & I).
    apply filter_In in I. destruct I as (_ & I). rewrite !andb_true_iff in I. destruct I as ((F & _) & _). apply fov_bounds in F.
    cbn [fst]. apply bounds_iff. split; [exact F|].
    assert (L : (n < length (flow_steps m))%nat) by (apply nth_error_Some; intro X; pose proof (eq_trans (eq_sym X) N); discriminate).
    unfold made_moves in M. apply in_map_iff in M. destruct M as (a & <- & A). cbn [flow_steps] in L.
    rewrite map_length, combine_length, firstn_length, skipn_length, map_length, stack_states in L. lia. }
  rewrite (scatter_ok _ _ _ fst (fun p => fst (snd p)) _ B), (scatter_ok _ _ _ fst (fun p => snd (snd p)) _ B), (scatter_ok _ _ _ fst (fun _ => 1) _ B).
  cbn [bind]. eexists. split; [reflexivity|]. intros r q t G. cbn beta.
  rewrite (scatter_value fst (fun p => fst (snd p))), (scatter_value fst (fun p => snd (snd p))), (scatter_value fst (fun _ => 1)).
  pose proof (points_landings class r q t G) as P.
  set (l := filter (fun x => same_place (fst x) (r, q, t)) (flow_points c class made_moves)) in *.
  rewrite <- (map_map snd fst l), <- (map_map snd snd l), sum_ones, P.
  assert (Len : length l = length (landings class r q t)) by (rewrite <- (map_length snd l), P; apply map_length).
  rewrite Len, !map_map. cbn [fst snd].
  rewrite (sum_IZR (fun kd : sample_id * (Z * Z) => fst (snd kd))), (sum_IZR (fun kd : sample_id * (Z * Z) => snd (snd kd))).
  unfold mean_displacement, divide_no_nan. rewrite map_length, <- !(map_map snd).
  destruct (landings class r q t) as [|kd ld].
  - cbn. destruct (Req_EM_T 0 0); [reflexivity|lra].
  - cbn [map]. destruct (Req_EM_T (INR (length (kd :: ld))) 0) as [Z|Z]; [|reflexivity].
    exfalso. apply (not_0_INR (length (kd :: ld))); [discriminate|exact Z].
Qed.

Lemma flow_value : exists g, render_flow_from_inputs c sc ts obs occ = Ok g /\
  forall class h, view g class = Ok h -> forall r q t, in_grid c r q ->
    exists l, NoDup (map fst l) /\ (forall k d, In (k, d) l <-> contributes c sc ts obs occ size class r q t k d) /\
      h r q t = mean_displacement (map snd l).
Proof.
  unfold render_flow_from_inputs. rewrite (rows_ok c sc ts obs occ Sampled Complete Requested). cbn [bind].
  destruct (Nat.eqb_spec (num_waypoints (task c)) 0) as [E|_]; [lia|]. rewrite Size, moves_ok. cbn [bind].
  destruct (Nat.ltb_spec (num_steps c ts) size) as [E|_]; [lia|].
  destruct (flow_class_ok 1) as (v & V & V'). destruct (flow_class_ok 2) as (p & P & P'). destruct (flow_class_ok 3) as (y & Y & Y').
  rewrite V. cbn [bind]. rewrite P. cbn [bind]. rewrite Y. cbn [bind]. eexists. split; [reflexivity|].
  intros class h H r q t G. exists (landings class r q t). split; [apply nodup_landings|]. split; [intros k d; apply in_landings|].
  unfold view in H. destruct (Z.eqb_spec class 1) as [->|N1]; [cbn in H; injection H as <-; now apply V'|].
  destruct (Z.eqb_spec class 2) as [->|N2]; [cbn in H; injection H as <-; now apply P'|].
  destruct (Z.eqb_spec class 3) as [->|N3]; [cbn in H; injection H as <-; now apply Y'|]. discriminate.
Qed.

(** A contribution starts from an occupied cell and ends in one. *)
Lemma contribution_origin class r q t k d : contributes c sc ts obs occ size class r q t k d ->
  occupies c sc ts obs occ class (r + snd d) (q + fst d) t /\ occupies c sc ts obs occ class r q (t + size).
Proof.
  intros (I & J & a & b & s & N & T & K & B & Sx & V & V' & F & F'). apply nth_error_In in N.
  split; [exists a, b|exists a, s]; repeat (split; [assumption|]); exists (at_i k), (at_j k); auto.
Qed.
Lemma same_displacement l d : l <> [] -> (forall e, In e l -> e = d) -> mean_displacement l = (IZR (fst d), IZR (snd d)).
Proof.
  intros N H.
  assert (E : l = repeat d (length l)) by (clear N; induction l as [|x l IH]; [reflexivity|]; cbn; rewrite (H x (or_introl eq_refl)); f_equal; apply IH; intros e I; apply H; now right).
  assert (Sum : forall f n, fold_right Z.add 0%Z (map f (repeat d n)) = (f d * Z.of_nat n)%Z)
    by (intros f n; induction n as [|n IH]; [cbn; lia|]; cbn [repeat map fold_right]; rewrite IH; lia).
  unfold mean_displacement. destruct l as [|x l]; [congruence|]. rewrite E, !Sum, repeat_length, !mult_IZR, <- !INR_IZR_INZ.
  assert (INR (length (x :: l)) <> 0) by (apply not_0_INR; discriminate). f_equal; field; assumption.
Qed.

Lemma flow_back g class h r q t d : render_flow_from_inputs c sc ts obs occ = Ok g -> view g class = Ok h -> in_grid c r q ->
  (exists k, contributes c sc ts obs occ size class r q t k d) ->
  (forall k e, contributes c sc ts obs occ size class r q t k e -> e = d) ->
  h r q t = (IZR (fst d), IZR (snd d)) /\
  occupies c sc ts obs occ class (r + snd d) (q + fst d) t /\ occupies c sc ts obs occ class r q (t + size).
Proof.
  intros R V G (k & K) U. destruct flow_value as (g' & R' & H). rewrite R in R'. injection R' as <-.
  destruct (H class h V r q t G) as (l & _ & L & E). split; [|exact (contribution_origin _ _ _ _ _ _ K)].
  rewrite E. apply same_displacement.
  - intro X. apply L in K. apply (in_map snd) in K. rewrite X in K. destruct K.
  - intros e I. apply in_map_iff in I. destruct I as ((k', e') & <- & I). apply L in I. exact (U _ _ I).
Qed.
Lemma flow_none g class h r q t : render_flow_from_inputs c sc ts obs occ = Ok g -> view g class = Ok h -> in_grid c r q ->
  (forall k d, ~ contributes c sc ts obs occ size class r q t k d) -> h r q t = (0, 0).
Proof.
  intros R V G N. destruct flow_value as (g' & R' & H). rewrite R in R'. injection R' as <-.
  destruct (H class h V r q t G) as (l & _ & L & E). rewrite E.
  destruct l as [|(k, d) l]; [reflexivity|]. exfalso. apply (N k d), L. now left.
Qed.
End Flow.
