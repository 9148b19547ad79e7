(** Proofs about the construction, the check and the movement of polygons. *)
From Coq Require Import Reals List Arith Lra Lia Bool Psatz.
From Verif Require Import Base ResultLib GeomModel PolyModel PolySpec HullModel HullSpec.
From Verif Require Import GeomBase PolyInside.
Import ListNotations.
Open Scope R_scope.

Lemma lt_true a b : rltb a b = true <-> a < b.
Proof. unfold rltb. destruct (Rlt_dec a b); split; intro; try lra; try discriminate; reflexivity. Qed.
Lemma lt_false a b : rltb a b = false <-> b <= a.
Proof. unfold rltb. destruct (Rlt_dec a b); split; intro; try lra; try discriminate; reflexivity. Qed.
Lemma le_true a b : rleb a b = true <-> a <= b.
Proof. unfold rleb. destruct (Rle_dec a b); split; intro; try lra; try discriminate; reflexivity. Qed.
Lemma le_false a b : rleb a b = false <-> b < a.
Proof. unfold rleb. destruct (Rle_dec a b); split; intro; try lra; try discriminate; reflexivity. Qed.
Lemma eps_pos : 0 < kEpsilon.
Proof. unfold kEpsilon. lra. Qed.

(** Removing points. *)
Lemma close_iff a b : close a b <-> distance_sqr a b < kEpsilon * kEpsilon.
Proof. unfold close, square_distance, distance_sqr, kEpsilon, Rsqr. split; intro H; lra. Qed.
Lemma close_sym a b : close a b <-> close b a.
Proof. unfold close, square_distance, Rsqr. split; intro H; lra. Qed.
Lemma keep_test from to : rleb (kEpsilon * kEpsilon) (distance_sqr from to) = true <-> ~ close to from.
Proof. rewrite le_true, close_sym, close_iff. split; intro H; lra. Qed.

Lemma keep_part l : forall to, part_of (keep_from to l) l.
Proof. induction l as [|x l IH]; intro to; cbn [keep_from]; [constructor|]. destruct (rleb _ _); constructor; apply IH. Qed.
Lemma spaced_cons a l : (forall b, hd_error l = Some b -> ~ close a b) -> spaced l -> spaced (a :: l).
Proof.
  intros H S [|i] x y X Y; cbn [nth_error] in X, Y.
  - injection X as <-. apply H. destruct l; exact Y.
  - exact (S i x y X Y).
Qed.
Lemma spaced_tail a l : spaced (a :: l) -> spaced l.
Proof. intros H i x y X Y. exact (H (S i) x y X Y). Qed.
Lemma keep_spaced l : forall to, spaced (to :: keep_from to l).
Proof.
  induction l as [|x l IH]; intro to; cbn [keep_from].
  - intros [|i] a b A B; cbn in B; [discriminate B|destruct i; discriminate B].
  - destruct (rleb _ _) eqn:E; [|apply IH]. apply keep_test in E. apply spaced_cons; [|apply IH].
    intros b B. injection B as <-. exact E.
Qed.
Lemma keep_near l : forall to p, In p l -> exists q, In q (to :: keep_from to l) /\ (p = q \/ close q p).
Proof.
  induction l as [|x l IH]; intros to p I; [destruct I|]. destruct I as [<-|I]; cbn [keep_from]; destruct (rleb _ _) eqn:E.
  - exists x. split; [right; now left|now left].
  - exists to. split; [now left|]. right. apply le_false in E. apply close_iff. unfold distance_sqr in *. lra.
  - destruct (IH x p I) as (q & Q & H). exists q. split; [now right|exact H].
  - destruct (IH to p I) as (q & Q & H). exists q. split; [exact Q|exact H].
Qed.
Lemma keep_same l : forall to, spaced (to :: l) -> keep_from to l = l.
Proof.
  induction l as [|x l IH]; intros to H; cbn [keep_from]; [reflexivity|].
  assert (E : rleb (kEpsilon * kEpsilon) (distance_sqr x to) = true) by (apply keep_test; exact (H 0%nat to x eq_refl eq_refl)).
  rewrite E. f_equal. apply IH. exact (spaced_tail _ _ H).
Qed.
Lemma removelast_part {A} (l : list A) : part_of (removelast l) l.
Proof.
  induction l as [|a l IH]; [constructor|]. cbn [removelast]. destruct l as [|b l]; [constructor; constructor|]. now constructor.
Qed.
Lemma part_trans {A} (l m k : list A) : part_of l m -> part_of m k -> part_of l k.
Proof. intros H K. revert l H. induction K; intros l' H; [exact H|inversion H; subst; constructor; auto|constructor; auto]. Qed.
Lemma removelast_nth {A} (l : list A) i a : nth_error (removelast l) i = Some a -> nth_error l i = Some a.
Proof.
  revert i; induction l as [|b l IH]; intros i H; [exact H|]. cbn [removelast] in H. destruct l as [|c l]; [destruct i; discriminate H|].
  destruct i; [exact H|]. now apply IH.
Qed.
Lemma last_nth {A} (l : list A) d : l <> [] -> nth_error l (length l - 1) = Some (last l d).
Proof.
  induction l as [|a l IH]; [contradiction|]. intros _. destruct l as [|b l]; [reflexivity|].
  specialize (IH ltac:(discriminate)). cbn [length] in *. replace (S (S (length l)) - 1)%nat with (S (S (length l) - 1)) by lia. exact IH.
Qed.
Lemma last_in {A} (l : list A) d : l <> [] -> In (last l d) l.
Proof. intro N. eapply nth_error_In. now apply last_nth. Qed.
Lemma removelast_in {A} (l : list A) d p : In p l -> In p (removelast l) \/ p = last l d.
Proof.
  intro I. destruct l as [|a l]; [destruct I|]. rewrite (app_removelast_last d (l := a :: l)) in I by discriminate.
  apply in_app_iff in I. destruct I as [I|[<-|[]]]; auto.
Qed.
Lemma square_triangle a b c e : 0 <= e -> square_distance a b < e² -> square_distance b c < e² -> square_distance a c < (2 * e)².
Proof.
  unfold square_distance. intros E H K. destruct a as (ax & ay), b as (bx & by0), c as (cx & cy). cbn [fst snd] in *.
  unfold Rsqr in *.
  pose proof (Rle_0_sqr ((ax - bx) - (bx - cx))) as P. pose proof (Rle_0_sqr ((ay - by0) - (by0 - cy))) as Q. unfold Rsqr in P, Q.
  replace (ax - cx) with ((ax - bx) + (bx - cx)) by ring. replace (ay - cy) with ((ay - by0) + (by0 - cy)) by ring. lra.
Qed.

Theorem kept l : l <> [] -> let r := remove_consecutive_duplicate_points l in
  part_of r l /\ hd_error r = hd_error l /\ spaced r /\
  (forall p, In p l -> exists q, In q r /\ square_distance p q < (2 * / 10000000000)²).
Proof.
  intro N. destruct l as [|to l]; [contradiction|]. cbn zeta. unfold remove_consecutive_duplicate_points.
  pose proof (keep_part l to) as P. pose proof (keep_spaced l to) as S. pose proof (keep_near l to) as W.
  set (k := keep_from to l) in *. clearbody k.
  assert (Z : forall p : pt, square_distance p p < (2 * / 10000000000)²).
  { intro p. unfold square_distance, Rsqr. lra. }
  assert (C : forall p q, close q p -> square_distance p q < (2 * / 10000000000)²).
  { intros p q H. unfold close, square_distance, Rsqr in *. pose proof eps_pos. lra. }
  destruct (Nat.leb 2 (length (to :: k)) && rltb (distance_sqr to (last (to :: k) (0, 0))) (kEpsilon * kEpsilon)) eqn:E.
  - apply andb_true_iff in E. destruct E as (L & E). apply Nat.leb_le in L. apply lt_true in E. apply close_iff in E.
    destruct k as [|b k]; [cbn in L; lia|].
    split; [exact (part_trans _ _ _ (removelast_part _) (part_keep _ _ _ P))|].
    split; [reflexivity|]. split; [intros i x y X Y; exact (S i x y (removelast_nth _ _ _ X) (removelast_nth _ _ _ Y))|].
    assert (F : In to (removelast (to :: b :: k))) by (cbn [removelast]; now left).
    intros p I. assert (exists q, In q (to :: b :: k) /\ (p = q \/ close q p)) as (q & Q & H).
    { destruct I as [<-|I]; [exists to; split; [now left|now left]|exact (W p I)]. }
    destruct (removelast_in _ (0, 0) q Q) as [Q'|Q'].
    + exists q. split; [exact Q'|]. destruct H as [->|H]; [apply Z|now apply C].
    + exists to. split; [exact F|]. rewrite <- Q' in E. destruct H as [->|H]; [apply C; exact E|].
      apply (square_triangle p q to (/ 10000000000)); [lra|apply close_sym in H; exact H|apply close_sym in E; exact E].
  - split; [now constructor|]. split; [reflexivity|]. split; [exact S|].
    intros p I. assert (exists q, In q (to :: k) /\ (p = q \/ close q p)) as (q & Q & H).
    { destruct I as [<-|I]; [exists to; split; [now left|now left]|exact (W p I)]. }
    exists q. split; [exact Q|]. destruct H as [->|H]; [apply Z|now apply C].
Qed.
Lemma part_length {A} (l m : list A) : part_of l m -> (length l <= length m)%nat.
Proof. induction 1; cbn; lia. Qed.
Lemma removelast_length {A} (l : list A) : length (removelast l) = (length l - 1)%nat.
Proof. induction l as [|a l IH]; [reflexivity|]. cbn [removelast]. destruct l; [reflexivity|]. cbn [length] in *. lia. Qed.
Theorem unchanged l : (2 <= length l)%nat -> (remove_consecutive_duplicate_points l = l <-> spaced l /\ open_ends l).
Proof.
  intro L. destruct l as [|to l]; [cbn in L; lia|]. pose proof (kept (to :: l) ltac:(discriminate)) as (_ & _ & S & _).
  unfold remove_consecutive_duplicate_points in *. split.
  - intro E. rewrite E in S. split; [exact S|]. intros a b A B C. injection A as <-. rewrite (last_nth _ (0, 0)) in B by discriminate. injection B as <-.
    destruct (_ && _) eqn:D.
    + pose proof (part_length _ _ (keep_part l to)) as K. apply (f_equal (@length _)) in E. rewrite removelast_length in E. cbn [length] in E. lia.
    + injection E as E. rewrite E in D. apply andb_false_iff in D. destruct D as [D|D]; [apply Nat.leb_gt in D; lia|]. apply lt_false in D.
      apply close_iff in C. exact (Rlt_not_le _ _ C D).
  - intros (Sp & O). clear S. rewrite (keep_same l to Sp). destruct (_ && _) eqn:E; [|reflexivity]. exfalso.
    apply andb_true_iff in E. destruct E as (_ & E). apply lt_true, close_iff in E.
    exact (O to _ eq_refl (last_nth (to :: l) (0, 0) ltac:(discriminate)) E).
Qed.

(** Bounding boxes. *)
Lemma fold_min l : forall m : pt, let r := fold_left (fun m p : point => (Rmin (fst m) (fst p), Rmin (snd m) (snd p))) l m in
  (exists p, In p (m :: l) /\ fst p = fst r) /\ (exists p, In p (m :: l) /\ snd p = snd r).
Proof.
  induction l as [|x l IH]; intro m; cbn zeta; cbn [fold_left].
  - split; exists m; (split; [now left|reflexivity]).
  - destruct (IH (Rmin (fst m) (fst x), Rmin (snd m) (snd x))) as ((p & P & E) & (q & Q & F)). split.
    + destruct P as [<-|P]; [|exists p; split; [right; now right|exact E]]. rewrite <- E. cbn [fst].
      unfold Rmin. destruct (Rle_dec _ _); [exists m; split; [now left|reflexivity]|exists x; split; [right; now left|reflexivity]].
    + destruct Q as [<-|Q]; [|exists q; split; [right; now right|exact F]]. rewrite <- F. cbn [snd].
      unfold Rmin. destruct (Rle_dec _ _); [exists m; split; [now left|reflexivity]|exists x; split; [right; now left|reflexivity]].
Qed.
Lemma fold_max l : forall m : pt, let r := fold_left (fun m p : point => (Rmax (fst m) (fst p), Rmax (snd m) (snd p))) l m in
  (exists p, In p (m :: l) /\ fst p = fst r) /\ (exists p, In p (m :: l) /\ snd p = snd r).
Proof.
  induction l as [|x l IH]; intro m; cbn zeta; cbn [fold_left].
  - split; exists m; (split; [now left|reflexivity]).
  - destruct (IH (Rmax (fst m) (fst x), Rmax (snd m) (snd x))) as ((p & P & E) & (q & Q & F)). split.
    + destruct P as [<-|P]; [|exists p; split; [right; now right|exact E]]. rewrite <- E. cbn [fst].
      unfold Rmax. destruct (Rle_dec _ _); [exists x; split; [right; now left|reflexivity]|exists m; split; [now left|reflexivity]].
    + destruct Q as [<-|Q]; [|exists q; split; [right; now right|exact F]]. rewrite <- F. cbn [snd].
      unfold Rmax. destruct (Rle_dec _ _); [exists x; split; [right; now left|reflexivity]|exists m; split; [now left|reflexivity]].
Qed.
Lemma bounding_tight l : l <> [] -> tight l (fst (bounding_box l)) (snd (bounding_box l)).
Proof.
  intro N. split; [intros p I; now apply box_bounds|]. destruct l as [|a l]; [contradiction|]. unfold bounding_box. cbn [hd tl fst snd].
  destruct (fold_min l a) as (A & B), (fold_max l a) as (C & D). auto.
Qed.
Definition filled (k : list pt) : list pt := match k with [p] => [p; p; p; p] | [p; q] => [p; q; q; p] | _ => k end.
Lemma build k : k <> [] -> build_from_points k =
  Ok {| points := filled k; bbox_bottom_left := fst (bounding_box (filled k)); bbox_top_right := snd (bounding_box (filled k)) |}.
Proof. intro N. destruct k as [|a [|b [|c k]]]; [contradiction|reflexivity..]. Qed.
Lemma filled_three k : k <> [] -> (3 <= length (filled k))%nat.
Proof. intro N. destruct k as [|a [|b [|c k]]]; cbn; [contradiction|lia..]. Qed.
Lemma filled_same k : (3 <= length k)%nat -> filled k = k.
Proof. destruct k as [|a [|b [|c k]]]; cbn; (lia || reflexivity). Qed.

Theorem made debug l :
  ((length l < 3)%nat -> make_polygon debug l = Err CheckFailed) /\
  ((3 <= length l)%nat -> debug = true -> is_convex_hull l = None -> make_polygon debug l = Err CheckFailed) /\
  ((3 <= length l)%nat -> (debug = true -> is_convex_hull l <> None) -> exists g k, make_polygon debug l = Ok g /\
    part_of k l /\ hd_error k = hd_error l /\ spaced k /\ (forall p, In p l -> exists q, In q k /\ square_distance p q < (2 * / 10000000000)²) /\
    points g = (match k with [p] => [p; p; p; p] | [p; q] => [p; q; q; p] | _ => k end) /\
    (k = l <-> spaced l /\ open_ends l) /\ (3 <= length (points g))%nat /\ tight (points g) (bbox_bottom_left g) (bbox_top_right g)).
Proof.
  unfold make_polygon. destruct (Nat.leb_spec (length l) 2) as [L|L].
  - split; [reflexivity|]. split; intro; lia.
  - split; [lia|]. split; [intros _ -> ->; reflexivity|]. intros _ D.
    assert (E : debug && match is_convex_hull l with None => true | Some _ => false end = false).
    { destruct debug; [|reflexivity]. cbn [andb]. destruct (is_convex_hull l); [reflexivity|]. now destruct (D eq_refl). }
    rewrite E. assert (N : l <> []) by (intros ->; cbn in L; lia).
    destruct (kept l N) as (P & H & Sp & W). set (k := remove_consecutive_duplicate_points l) in *.
    assert (Nk : k <> []) by (intro Z; rewrite Z in H; destruct l; [contradiction|discriminate H]).
    exists {| points := filled k; bbox_bottom_left := fst (bounding_box (filled k)); bbox_top_right := snd (bounding_box (filled k)) |}, k.
    split; [now apply build|]. split; [exact P|]. split; [exact H|]. split; [exact Sp|]. split; [exact W|]. split; [reflexivity|].
    split; [apply unchanged; lia|]. pose proof (filled_three k Nk) as T. split; [exact T|]. cbn [points bbox_bottom_left bbox_top_right].
    apply bounding_tight. intro Z. rewrite Z in T. cbn in T. lia.
Qed.

(** Movement. *)
Definition sound (g : polygon2d) : Prop := (3 <= length (points g))%nat /\ tight (points g) (bbox_bottom_left g) (bbox_top_right g).
Lemma shift_tight d l lo hi : tight l lo hi -> tight (map (fun p => padd p d) l) (padd lo d) (padd hi d).
Proof.
  intros (A & (p1 & I1 & E1) & (p2 & I2 & E2) & (p3 & I3 & E3) & (p4 & I4 & E4)). unfold padd. split.
  - intros p I. apply in_map_iff in I. destruct I as (q & <- & I). specialize (A q I). cbn [fst snd]. lra.
  - split; [exists (padd p1 d); split; [apply in_map_iff; now exists p1|cbn; lra]|].
    split; [exists (padd p2 d); split; [apply in_map_iff; now exists p2|cbn; lra]|].
    split; [exists (padd p3 d); split; [apply in_map_iff; now exists p3|cbn; lra]|].
    exists (padd p4 d); split; [apply in_map_iff; now exists p4|cbn; lra].
Qed.
Lemma transform_one m g : sound g -> exists g', transform (by_angle m) (around m) (then_by m) g = Ok g' /\ points g' = map (carried m) (points g) /\ sound g'.
Proof.
  intros (L & T). unfold transform. destruct (reqb (by_angle m) 0) eqn:E.
  - unfold reqb in E. destruct (Req_EM_T (by_angle m) 0) as [E'|]; [|discriminate E]. exists (shift_center (then_by m) g). split; [reflexivity|].
    assert (P : points (shift_center (then_by m) g) = map (carried m) (points g)).
    { cbn [shift_center points]. apply map_ext. intro p. unfold carried, padd. rewrite E', cos_0, sin_0. f_equal; ring. }
    split; [exact P|]. split; [cbn [shift_center points]; now rewrite map_length|]. exact (shift_tight (then_by m) _ _ _ T).
  - set (l := map _ _). assert (P : l = map (carried m) (points g)).
    { unfold l. apply map_ext. intro p. unfold carried, padd. cbn [fst snd]. f_equal; ring. }
    assert (Ll : (3 <= length l)%nat) by (rewrite P, map_length; exact L).
    assert (N : l <> []) by (intro Z; rewrite Z in Ll; cbn in Ll; lia).
    eexists. split; [now apply build|]. cbn [points]. rewrite filled_same by exact Ll. split; [exact P|].
    split; cbn [points bbox_bottom_left bbox_top_right]; [exact Ll|]. now apply bounding_tight.
Qed.
Theorem moved_all ms : forall g, (3 <= length (points g))%nat -> tight (points g) (bbox_bottom_left g) (bbox_top_right g) ->
  exists g', foldM (fun g m => transform (by_angle m) (around m) (then_by m) g) ms g = Ok g' /\
    points g' = map (carried_all ms) (points g) /\ tight (points g') (bbox_bottom_left g') (bbox_top_right g').
Proof.
  induction ms as [|m ms IH]; intros g L T; cbn [foldM].
  - exists g. split; [reflexivity|]. split; [symmetry; apply map_id|exact T].
  - destruct (transform_one m g (conj L T)) as (g1 & E & P & (L1 & T1)). rewrite E. cbn [bind]. destruct (IH g1 L1 T1) as (g' & F & P' & T').
    exists g'. split; [exact F|]. split; [|exact T']. rewrite P', P, map_map. reflexivity.
Qed.
Lemma carried_turn m a b z : turn (carried m a) (carried m b) (carried m z) = turn a b z.
Proof.
  unfold turn, carried. cbn [fst snd]. pose proof (sin2_cos2 (by_angle m)) as H. unfold Rsqr in H.
  set (s := sin (by_angle m)) in *. set (c := cos (by_angle m)) in *.
  transitivity ((s * s + c * c) * ((fst b - fst a) * (snd z - snd a) - (snd b - snd a) * (fst z - fst a))); [ring|rewrite H; ring].
Qed.
Lemma carried_distance m a b : square_distance (carried m a) (carried m b) = square_distance a b.
Proof.
  unfold square_distance, carried, Rsqr. cbn [fst snd]. pose proof (sin2_cos2 (by_angle m)) as H. unfold Rsqr in H.
  set (s := sin (by_angle m)) in *. set (c := cos (by_angle m)) in *.
  transitivity ((s * s + c * c) * ((fst a - fst b) * (fst a - fst b) + (snd a - snd b) * (snd a - snd b))); [ring|rewrite H; ring].
Qed.
Theorem motion_keeps ms : 
  (forall a b, square_distance (carried_all ms a) (carried_all ms b) = square_distance a b) /\
  (forall a b z, turn (carried_all ms a) (carried_all ms b) (carried_all ms z) = turn a b z).
Proof.
  split; induction ms as [|m ms IH]; intros; cbn [carried_all fold_left]; try reflexivity.
  - change (square_distance (carried_all ms (carried m a)) (carried_all ms (carried m b)) = square_distance a b). now rewrite IH, carried_distance.
  - change (turn (carried_all ms (carried m a)) (carried_all ms (carried m b)) (carried_all ms (carried m z)) = turn a b z). now rewrite IH, carried_turn.
Qed.
Lemma corner_map f P i : P <> [] -> corner (map f P) i = f (corner P i).
Proof.
  intro N. unfold corner. rewrite map_length.
  assert (L : (Nat.modulo i (length P) < length P)%nat) by (apply Nat.mod_upper_bound; destruct P; [contradiction|discriminate]).
  apply nth_error_nth. rewrite nth_error_map. rewrite (nth_error_nth' P (0, 0) L). reflexivity.
Qed.
Theorem inside_moved ms P z : convex P ->
  convex (map (carried_all ms) P) /\ (inside (map (carried_all ms) P) (carried_all ms z) <-> inside P z) /\
  point_inside (map (carried_all ms) P) (carried_all ms z) = point_inside P z.
Proof.
  intro C. assert (N : P <> []) by (destruct C as (L & _); intros ->; cbn in L; lia). destruct (motion_keeps ms) as (_ & T).
  assert (C' : convex (map (carried_all ms) P)).
  { destruct C as (L & H). split; [now rewrite map_length|]. intros i j. rewrite map_length, !corner_map, T by exact N. apply H. }
  assert (I : inside (map (carried_all ms) P) (carried_all ms z) <-> inside P z).
  { unfold inside. split; intros (_ & H); (split; [|intro i; specialize (H i); rewrite !corner_map, T in * by exact N; exact H]).
    - exact N.
    - intro Z. now apply map_eq_nil in Z. }
  split; [exact C'|]. split; [exact I|]. apply Bool.eq_iff_eq_true. rewrite (point_inside_iff _ C'), (point_inside_iff _ C). exact I.
Qed.
Theorem empty_moved m :
  (by_angle m = 0 -> exists g, transform (by_angle m) (around m) (then_by m) empty_polygon = Ok g /\ points g = [] /\ bbox_bottom_left g = then_by m /\ bbox_top_right g = then_by m) /\
  (by_angle m <> 0 -> transform (by_angle m) (around m) (then_by m) empty_polygon = Err CheckFailed).
Proof.
  unfold transform, reqb. destruct (Req_EM_T (by_angle m) 0) as [E|E]; split; intro H; try contradiction.
  - eexists. split; [reflexivity|]. split; [reflexivity|]. cbn [shift_center bbox_bottom_left bbox_top_right empty_polygon]. unfold padd. cbn [fst snd].
    rewrite !Rplus_0_l. rewrite <- surjective_pairing. split; reflexivity.
  - reflexivity.
Qed.
