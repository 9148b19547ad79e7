From Coq Require Import Reals List Arith Lra Lia Bool ZArith.
From Verif Require Import Base ResultLib ListLib GeomModel GeomBase WayModel WayFlow OccModel OccSpec OccGeom.
Import ListNotations.
Open Scope R_scope.

Lemma stack_states ts a : stack ts a = states ts a.
Proof. unfold stack, states. apply flat_map_concat_map. Qed.
Lemma has_future ts : existsb (is_time Future) ts = true <-> In Future ts.
Proof.
  rewrite existsb_exists. split.
  - intros (t & I & E). destruct t; try discriminate. exact I.
  - intro I. exists Future. split; [exact I|reflexivity].
Qed.

(** Which agents are kept. *)
Definition observedb (a : agent) : bool := existsb valid (stack [Past; Current] a).
Lemma observedb_iff a : observedb a = true <-> observed a.
Proof.
  unfold observedb, observed. rewrite existsb_exists. cbn [stack flat_map]. rewrite app_nil_r. reflexivity.
Qed.
Definition keptb (ts : list times) (obs occ : bool) (a : agent) : bool :=
  negb (existsb (is_time Future) ts) || (if observedb a then obs else occ).
Lemma keptb_iff ts obs occ a : keptb ts obs occ a = true <-> wanted ts obs occ a.
Proof.
  unfold keptb, wanted. rewrite orb_true_iff, negb_true_iff.
  rewrite <- has_future. pose proof (observedb_iff a) as O.
  destruct (existsb (is_time Future) ts), (observedb a).
  - split; [intros [E|E]; [discriminate|]|intro H; right].
    + intros _. split; [auto|]. intro N. exfalso. apply N, O. reflexivity.
    + apply H; [reflexivity|]. now apply O.
  - assert (NO : ~ observed a) by (intro X; apply O in X; discriminate).
    split; [intros [E|E]; [discriminate|]|intro H; right].
    + intros _. split; [tauto|auto].
    + apply H; auto.
  - split; [discriminate|auto].
  - split; [discriminate|auto].
Qed.

Definition made_rows (c : render_config) (sc : scene) (ts : list times) (obs occ : bool) : list row :=
  map (fun a => {| row_type := agent_type a;
                   row_steps := map (fun s => (valid s && keptb ts obs occ a, map (pix c sc s) (cells c))) (stack ts a) |}) (agents sc).
Lemma rows_ok c sc ts obs occ : sampled c -> complete c ts sc -> (In Future ts -> obs = true \/ occ = true) ->
  sample_and_filter c sc ts obs occ = Ok (made_rows c sc ts obs occ).
Proof.
  intros Sa Co Re. unfold sample_and_filter. pose proof Sa as (L & W).
  destruct (Nat.ltb_spec (points_per_side_length c) 1); [lia|]. destruct (Nat.ltb_spec (points_per_side_width c) 1); [lia|].
  assert (F : forallb (fun a => Nat.eqb (length (stack ts a)) (num_steps c ts)) (agents sc) = true).
  { apply forallb_forall. intros a I. rewrite stack_states. apply Nat.eqb_eq. now apply Co. }
  rewrite F. cbn [negb].
  assert (R : forall f, (forall a, In a (agents sc) -> f a = keptb ts obs occ a) ->
    map (fun a => {| row_type := agent_type a;
         row_steps := map (fun s => (valid s && f a, map (to_image c) (sample_points c sc s))) (stack ts a) |}) (agents sc) =
    made_rows c sc ts obs occ).
  { intros f Hf. apply map_ext_in. intros a I. f_equal. apply map_ext. intro s. rewrite (Hf a I). f_equal. now apply samples_code. }
  pose proof (has_future ts) as HF. unfold keptb in R.
  destruct (existsb (is_time Future) ts); cbn [negb orb] in R.
  - assert (X : obs = true \/ occ = true) by (apply Re, HF; reflexivity).
    destruct obs, occ; cbn [andb negb].
    + f_equal. apply R. intros a _. now destruct (observedb a).
    + f_equal. apply R. intros a _. fold (observedb a). now destruct (observedb a).
    + f_equal. apply R. intros a _. fold (observedb a). now destruct (observedb a).
    + destruct X; discriminate.
  - rewrite andb_false_r. f_equal. apply R. reflexivity.
Qed.
Lemma rows_refused c sc ts obs occ : ~ (sampled c /\ complete c ts sc /\ (In Future ts -> obs = true \/ occ = true)) ->
  sample_and_filter c sc ts obs occ = Err ValueError.
Proof.
  intro N. unfold sample_and_filter.
  destruct (Nat.ltb_spec (points_per_side_length c) 1) as [A|A]; [reflexivity|].
  destruct (Nat.ltb_spec (points_per_side_width c) 1) as [B|B]; [reflexivity|].
  destruct (forallb (fun a => Nat.eqb (length (stack ts a)) (num_steps c ts)) (agents sc)) eqn:F; cbn [negb]; [|reflexivity].
  pose proof (has_future ts) as HF.
  destruct (existsb (is_time Future) ts), obs, occ; cbn [andb negb]; try reflexivity; exfalso; apply N;
    (split; [split; lia|]); (split; [intros a I; rewrite forallb_forall in F; specialize (F a I); rewrite stack_states in F; now apply Nat.eqb_eq|]); intro X; auto;
    apply HF in X; discriminate.
Qed.

(** Numbered lists. *)
Lemma in_numbered {A} (l : list A) n x : In (n, x) (numbered l) <-> nth_error l n = Some x.
Proof.
  unfold numbered. assert (H : forall s, In (n, x) (combine (seq s (length l)) l) <-> (s <= n)%nat /\ nth_error l (n - s) = Some x).
  { induction l as [|y l IH]; intro s; cbn [length seq combine].
    - split; [intros []|]. intros (_ & E). destruct (n - s)%nat; discriminate.
    - cbn [In]. rewrite IH. split.
      + intros [E|(L & E)].
        * injection E as <- <-. split; [lia|]. now rewrite Nat.sub_diag.
        * split; [lia|]. replace (n - s)%nat with (S (n - S s)) by lia. exact E.
      + intros (L & E). destruct (Nat.eq_dec s n) as [->|D].
        * left. rewrite Nat.sub_diag in E. cbn in E. congruence.
        * right. split; [lia|]. replace (n - s)%nat with (S (n - S s)) in E by lia. exact E. }
  rewrite (H 0%nat). rewrite Nat.sub_0_r. intuition lia.
Qed.

(** Scattering. *)
Lemma fov_bounds c p : point_is_in_fov c p = true <-> in_grid c (snd p) (fst p).
Proof. unfold point_is_in_fov, in_grid. rewrite !andb_true_iff, !Z.leb_le, !Z.ltb_lt. tauto. Qed.
Lemma bounds_iff c n r q t : in_bounds (grid_height_cells c) (grid_width_cells c) n (r, q, t) = true <-> in_grid c r q /\ (t < n)%nat.
Proof. unfold in_bounds, in_grid. cbn [fst snd]. rewrite !andb_true_iff, !Z.leb_le, !Z.ltb_lt, Nat.ltb_lt. tauto. Qed.
Lemma same_iff i j : same_place i j = true <-> i = j.
Proof.
  destruct i as [[a b] n], j as [[a' b'] n']. unfold same_place. cbn [fst snd]. rewrite !andb_true_iff, !Z.eqb_eq, Nat.eqb_eq.
  split; [intros ((-> & ->) & ->); reflexivity|]. intro E. injection E as -> -> ->. tauto.
Qed.
Lemma scatter_ok {A} h w n (place : A -> place3) (val : A -> R) l :
  (forall x, In x l -> in_bounds h w n (place x) = true) ->
  scatter h w n (map (fun x => (place x, val x)) l) =
  Ok (fun r q t => reduce_sum (map snd (filter (fun u => same_place (fst u) (r, q, t)) (map (fun x => (place x, val x)) l)))).
Proof.
  intro H. unfold scatter.
  assert (F : forallb (fun u : place3 * R => in_bounds h w n (fst u)) (map (fun x => (place x, val x)) l) = true).
  { apply forallb_forall. intros u I. apply in_map_iff in I. destruct I as (x & <- & I). now apply H. }
  now rewrite F.
Qed.
Lemma filter_map_comm {A B} (f : A -> B) p l : filter p (map f l) = map f (filter (fun x => p (f x)) l).
Proof. induction l as [|x l IH]; [reflexivity|]. cbn. destruct (p (f x)); cbn; now rewrite IH. Qed.
Lemma scatter_value {A} (place : A -> place3) (val : A -> R) l r q t :
  reduce_sum (map snd (filter (fun u => same_place (fst u) (r, q, t)) (map (fun x => (place x, val x)) l))) =
  reduce_sum (map val (filter (fun x => same_place (place x) (r, q, t)) l)).
Proof. rewrite filter_map_comm, map_map. reflexivity. Qed.
Lemma sum_ones {A} (l : list A) : reduce_sum (map (fun _ => 1) l) = INR (length l).
Proof.
  induction l as [|x l IH]; [reflexivity|]. change (1 + reduce_sum (map (fun _ => 1) l) = INR (S (length l))). rewrite IH, S_INR. ring.
Qed.

Lemma in_rendered c k rows r q t : In (r, q, t) (rendered_points c k rows) <->
  in_grid c r q /\ exists a b ps, In a rows /\ row_type a = k /\ nth_error (row_steps a) t = Some (b, ps) /\ b = true /\ In (q, r) ps.
Proof.
  unfold rendered_points. rewrite in_flat_map. split.
  - intros (a & A & H). apply in_flat_map in H. destruct H as ((n, (b, ps)) & N & H). apply in_numbered in N.
    apply in_map_iff in H. destruct H as ((x, y) & E & H). cbn [fst snd] in E. injection E as <- <- <-.
    apply filter_In in H. cbn [fst snd] in H. destruct H as (I & H). rewrite !andb_true_iff, Z.eqb_eq in H. destruct H as ((F & B) & T).
    apply fov_bounds in F. split; [exact F|]. exists a, b, ps. tauto.
  - intros (G & a & b & ps & A & T & N & B & I). exists a. split; [exact A|]. apply in_flat_map. exists (t, (b, ps)).
    split; [now apply in_numbered|]. apply in_map_iff. exists (q, r). split; [reflexivity|]. apply filter_In. split; [exact I|].
    cbn [fst snd]. rewrite !andb_true_iff, Z.eqb_eq. split; [split; [now apply fov_bounds|exact B]|exact T].
Qed.

Definition shape_rows (n : nat) (rows : list row) : Prop := forall a, In a rows -> length (row_steps a) = n.
Lemma class_ok c n rows k : shape_rows n rows ->
  exists g, render_class c n rows k = Ok g /\
    forall r q t, (In (r, q, t) (rendered_points c k rows) -> g r q t = 1) /\ (~ In (r, q, t) (rendered_points c k rows) -> g r q t = 0).
Proof.
  intro Sh. unfold render_class.
  rewrite (scatter_ok (grid_height_cells c) (grid_width_cells c) n (fun i => i) (fun _ => 1) (rendered_points c k rows)).
  - cbn [bind]. eexists. split; [reflexivity|]. intros r q t.
    cbn beta. rewrite (scatter_value (fun i => i) (fun _ => 1)), sum_ones. split; intro I.
    + apply clip_one. assert (J : In (r, q, t) (filter (fun x => same_place x (r, q, t)) (rendered_points c k rows)))
        by (apply filter_In; split; [exact I|now apply same_iff]).
      destruct (filter (fun x => same_place x (r, q, t)) (rendered_points c k rows)) as [|y l]; [destruct J|].
      cbn [length]. rewrite S_INR. pose proof (pos_INR (length l)). lra.
    + assert (E : filter (fun x => same_place x (r, q, t)) (rendered_points c k rows) = []).
      { destruct (filter (fun x => same_place x (r, q, t)) (rendered_points c k rows)) as [|y l] eqn:E; [reflexivity|].
        exfalso. assert (J : In y (y :: l)) by now left. rewrite <- E in J. apply filter_In in J. destruct J as (J & S). apply same_iff in S. subst y. contradiction. }
      rewrite E. apply clip_id. cbn. lra.
  - intros ((r, q), t) I. apply in_rendered in I. destruct I as (G & a & b & ps & A & _ & N & _).
    apply bounds_iff. split; [exact G|]. rewrite <- (Sh a A). apply nth_error_Some. congruence.
Qed.

Lemma made_shape c sc ts obs occ : complete c ts sc -> shape_rows (num_steps c ts) (made_rows c sc ts obs occ).
Proof.
  intros Co a I. apply in_map_iff in I. destruct I as (x & <- & I). cbn [row_steps]. rewrite map_length, stack_states. now apply Co.
Qed.
Lemma rendered_occupies c sc ts obs occ k r q t :
  In (r, q, t) (rendered_points c k (made_rows c sc ts obs occ)) <-> in_grid c r q /\ occupies c sc ts obs occ k r q t.
Proof.
  rewrite in_rendered. unfold made_rows, occupies. split.
  - intros (G & a & b & ps & A & T & N & B & I). split; [exact G|]. apply in_map_iff in A. destruct A as (x & <- & X).
    cbn [row_type row_steps] in *. rewrite nth_error_map in N. rewrite stack_states in N.
    destruct (nth_error (states ts x) t) as [s|] eqn:E; [|discriminate]. cbn [option_map] in N. injection N as <- <-.
    apply andb_true_iff in B. destruct B as (V & K). apply keptb_iff in K. apply marks_code in I.
    exists x, s. repeat (split; [assumption|]). exact I.
  - intros (G & x & s & X & T & K & E & V & M). split; [exact G|].
    eexists. exists (valid s && keptb ts obs occ x)%bool, (map (pix c sc s) (cells c)).
    split; [apply in_map; exact X|]. cbn [row_type row_steps]. split; [exact T|].
    split; [rewrite nth_error_map, stack_states, E; reflexivity|]. split; [apply andb_true_iff; split; [exact V|now apply keptb_iff]|].
    now apply marks_code.
Qed.

(** Occupancy grids. *)
Lemma occupancy_value c sc ts obs occ : sampled c -> complete c ts sc -> (In Future ts -> obs = true \/ occ = true) ->
  exists g, render_occupancy_from_inputs c sc ts obs occ = Ok g /\
    forall class h, view g class = Ok h -> forall r q t, in_grid c r q ->
      (h r q t = 1 /\ occupies c sc ts obs occ class r q t) \/ (h r q t = 0 /\ ~ occupies c sc ts obs occ class r q t).
Proof.
  intros Sa Co Re. unfold render_occupancy_from_inputs. rewrite (rows_ok c sc ts obs occ Sa Co Re). cbn [bind].
  pose proof (made_shape c sc ts obs occ Co) as Sh.
  destruct (class_ok c _ _ 1 Sh) as (v & V & V'). destruct (class_ok c _ _ 2 Sh) as (p & P & P'). destruct (class_ok c _ _ 3 Sh) as (y & Y & Y').
  rewrite V. cbn [bind]. rewrite P. cbn [bind]. rewrite Y. cbn [bind]. eexists. split; [reflexivity|].
  intros class h H r q t G.
  assert (D : forall k (g : grid), (forall r q t, (In (r, q, t) (rendered_points c k (made_rows c sc ts obs occ)) -> g r q t = 1) /\
      (~ In (r, q, t) (rendered_points c k (made_rows c sc ts obs occ)) -> g r q t = 0)) ->
    (g r q t = 1 /\ occupies c sc ts obs occ k r q t) \/ (g r q t = 0 /\ ~ occupies c sc ts obs occ k r q t)).
  { intros k g Hg. destruct (Hg r q t) as (A & B).
    destruct (in_dec (fun a b : place3 => ltac:(destruct (same_place a b) eqn:E; [left; now apply same_iff|right; intro X; apply same_iff in X; congruence]))
      (r, q, t) (rendered_points c k (made_rows c sc ts obs occ))) as [I|I].
    - left. split; [now apply A|]. apply rendered_occupies in I. tauto.
    - right. split; [now apply B|]. intro O. apply I, rendered_occupies. tauto. }
  unfold view in H. destruct (Z.eqb_spec class 1) as [->|N1]; [cbn in H; injection H as <-; now apply D|].
  destruct (Z.eqb_spec class 2) as [->|N2]; [cbn in H; injection H as <-; now apply D|].
  destruct (Z.eqb_spec class 3) as [->|N3]; [cbn in H; injection H as <-; now apply D|]. discriminate.
Qed.
Lemma occupancy_refused c sc ts obs occ : ~ (sampled c /\ complete c ts sc /\ (In Future ts -> obs = true \/ occ = true)) ->
  render_occupancy_from_inputs c sc ts obs occ = Err ValueError /\ render_flow_from_inputs c sc ts obs occ = Err ValueError.
Proof.
  intro N. unfold render_occupancy_from_inputs, render_flow_from_inputs. now rewrite (rows_refused c sc ts obs occ N).
Qed.

(** Observed and hidden agents together are all agents. *)
Lemma occupies_split c sc ts class r q t : 
  occupies c sc ts true true class r q t <-> occupies c sc ts true false class r q t \/ occupies c sc ts false true class r q t.
Proof.
  unfold occupies, wanted. split.
  - intros (a & s & A & T & _ & E & V & M).
    destruct (observedb a) eqn:O.
    + apply observedb_iff in O. left. exists a, s. tauto.
    + assert (NO : ~ observed a) by (intro X; apply observedb_iff in X; congruence).
      right. exists a, s. tauto.
  - intros [(a & s & A & T & _ & H)|(a & s & A & T & _ & H)]; exists a, s; tauto.
Qed.
Lemma wanted_one ts a : In Future ts -> ~ (wanted ts true false a /\ wanted ts false true a).
Proof.
  intros F (A & B). destruct (A F) as (_ & A2). destruct (B F) as (B1 & _).
  destruct (observedb a) eqn:O.
  - apply observedb_iff in O. specialize (B1 O). discriminate.
  - assert (NO : ~ observed a) by (intro X; apply observedb_iff in X; congruence). specialize (A2 NO). discriminate.
Qed.
Lemma grids_split c sc g go gh : sampled c -> complete c [Future] sc ->
  render_occupancy_from_inputs c sc [Future] true true = Ok g ->
  render_occupancy_from_inputs c sc [Future] true false = Ok go ->
  render_occupancy_from_inputs c sc [Future] false true = Ok gh ->
  forall class h ho hh, view g class = Ok h -> view go class = Ok ho -> view gh class = Ok hh ->
  forall r q t, in_grid c r q -> h r q t = Rmax (ho r q t) (hh r q t).
Proof.
  intros Sa Co G GO GH class h ho hh H HO HH r q t I.
  destruct (occupancy_value c sc [Future] true true Sa Co ltac:(auto)) as (g' & E & V).
  destruct (occupancy_value c sc [Future] true false Sa Co ltac:(auto)) as (go' & EO & VO).
  destruct (occupancy_value c sc [Future] false true Sa Co ltac:(auto)) as (gh' & EH & VH).
  rewrite G in E. injection E as <-. rewrite GO in EO. injection EO as <-. rewrite GH in EH. injection EH as <-.
  specialize (V class h H r q t I). specialize (VO class ho HO r q t I). specialize (VH class hh HH r q t I).
  pose proof (occupies_split c sc [Future] class r q t) as S.
  destruct V as [(-> & V)|(-> & V)], VO as [(-> & VO)|(-> & VO)], VH as [(-> & VH)|(-> & VH)]; try tauto;
    unfold Rmax; destruct (Rle_dec _ _); lra.
Qed.

(** Moving the world. *)
Lemma states_moved angle dx dy ts a : states ts (move_agent angle dx dy a) = map (move_state angle dx dy) (states ts a).
Proof.
  unfold states. rewrite concat_map, map_map. f_equal. apply map_ext. intros []; reflexivity.
Qed.
Lemma occupies_moved c angle dx dy sc ts obs occ class r q t : normalize_sdc_yaw c = true ->
  occupies c (move_scene angle dx dy sc) ts obs occ class r q t <-> occupies c sc ts obs occ class r q t.
Proof.
  intro N.
  assert (M : forall s, marks c (move_scene angle dx dy sc) (move_state angle dx dy s) r q <-> marks c sc s r q).
  { intro s. rewrite !marks_code. erewrite map_ext; [reflexivity|]. intro ij. now apply pix_moved. }
  assert (W : forall a, wanted ts obs occ (move_agent angle dx dy a) <-> wanted ts obs occ a).
  { intro a. unfold wanted. assert (O : observed (move_agent angle dx dy a) <-> observed a).
    { unfold observed, move_agent. cbn [past current]. rewrite <- map_app. split.
      - intros (s & I & V). apply in_map_iff in I. destruct I as (s' & <- & I). exists s'. split; [exact I|exact V].
      - intros (s & I & V). exists (move_state angle dx dy s). split; [now apply in_map|exact V]. }
    rewrite O. reflexivity. }
  unfold occupies. split.
  - intros (a & s & A & T & K & E & V & Q). cbn [move_scene agents] in A. apply in_map_iff in A. destruct A as (a' & <- & A).
    rewrite states_moved, nth_error_map in E. destruct (nth_error (states ts a') t) as [s'|] eqn:E'; [|discriminate].
    cbn [option_map] in E. injection E as <-. exists a', s'. apply (proj1 (W a')) in K. apply M in Q. repeat (split; [assumption|]). exact Q.
  - intros (a & s & A & T & K & E & V & Q). exists (move_agent angle dx dy a), (move_state angle dx dy s).
    split; [cbn [move_scene agents]; now apply in_map|]. split; [exact T|]. split; [now apply W|].
    split; [rewrite states_moved, nth_error_map, E; reflexivity|]. split; [exact V|now apply M].
Qed.
Lemma complete_moved c angle dx dy ts sc : complete c ts (move_scene angle dx dy sc) <-> complete c ts sc.
Proof.
  unfold complete. cbn [move_scene agents]. split; intros H a I.
  - specialize (H (move_agent angle dx dy a) (in_map _ _ _ I)). now rewrite states_moved, map_length in H.
  - apply in_map_iff in I. destruct I as (a' & <- & I). rewrite states_moved, map_length. now apply H.
Qed.
Lemma grids_moved c angle dx dy sc ts obs occ g : normalize_sdc_yaw c = true ->
  render_occupancy_from_inputs c sc ts obs occ = Ok g ->
  exists g', render_occupancy_from_inputs c (move_scene angle dx dy sc) ts obs occ = Ok g' /\
    forall class h h', view g class = Ok h -> view g' class = Ok h' -> forall r q t, in_grid c r q -> h' r q t = h r q t.
Proof.
  intros N G.
  destruct (existsb (is_time Future) ts) eqn:F; [destruct (obs || occ) eqn:OO|].
  3: assert (Re : In Future ts -> obs = true \/ occ = true) by (intro X; apply has_future in X; congruence).
  1: assert (Re : In Future ts -> obs = true \/ occ = true) by (intros _; now apply orb_true_iff).
  2: { exfalso. apply has_future in F. apply orb_false_iff in OO. destruct OO as (-> & ->).
       destruct (occupancy_refused c sc ts false false) as (X & _); [|congruence].
       intros (_ & _ & R). destruct (R F); discriminate. }
  all: assert (Sa : sampled c) by (unfold sampled; unfold render_occupancy_from_inputs, sample_and_filter in G;
    destruct (Nat.ltb_spec (points_per_side_length c) 1); [discriminate|]; destruct (Nat.ltb_spec (points_per_side_width c) 1); [discriminate|lia]).
  all: assert (Co : complete c ts sc) by (
    unfold render_occupancy_from_inputs, sample_and_filter in G;
    destruct (Nat.ltb (points_per_side_length c) 1); [discriminate|]; destruct (Nat.ltb (points_per_side_width c) 1); [discriminate|];
    destruct (forallb (fun a => Nat.eqb (length (stack ts a)) (num_steps c ts)) (agents sc)) eqn:FB; [|discriminate];
    intros a I; rewrite forallb_forall in FB; specialize (FB a I); rewrite stack_states in FB; now apply Nat.eqb_eq).
  all: destruct (occupancy_value c sc ts obs occ Sa Co Re) as (g0 & E & V); rewrite G in E; injection E as <-;
    destruct (occupancy_value c (move_scene angle dx dy sc) ts obs occ Sa (proj2 (complete_moved c angle dx dy ts sc) Co) Re) as (g' & E' & V');
    exists g'; (split; [exact E'|]); intros class h h' H H' r q t I;
    specialize (V class h H r q t I); specialize (V' class h' H' r q t I); rewrite (occupies_moved c angle dx dy sc ts obs occ class r q t N) in V';
    destruct V as [(-> & V)|(-> & V)], V' as [(-> & V')|(-> & V')]; tauto.
Qed.
