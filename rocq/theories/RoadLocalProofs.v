(** The signed distance near the selected segment. *)
From Coq Require Import Reals Lra Psatz List Lia Bool.
From Verif Require Import Base ResultLib MonadLib GeomModel GeomSpec GeomBase GeomDistProofs RoadModel RoadSpec RoadProofs.
Import ListNotations.
Open Scope R_scope.

Lemma side_signed a b q f : signed_by (side_of a b q * planar q f) q f (0 < turn3 a b q) (turn3 a b q < 0).
Proof. unfold signed_by. destruct (side_of_cases a b q) as [[H ->]|[[H ->]|[H ->]]]; repeat split; intros; lra. Qed.
Lemma corner_signed c v b q f x : turn3 c v b <> 0 -> x = convex_at c v b ->
  signed_by (corner_sign x (side_of v b q) (side_of c v q) * planar q f) q f (left_of_corner c v b q) (right_of_corner c v b q).
Proof.
  intros N ->. destruct (corner_sign_ok c v b q _ N (convex_at_iff c v b)) as [H1 [H2 H3]]. cbv zeta in *.
  set (s := corner_sign _ _ _) in *. unfold signed_by. rewrite <- H2, <- H3. repeat split; intros; destruct H1 as [H1|[H1|H1]]; rewrite H1 in *; try lra.
Qed.
Lemma corner_sign_sym x s t : corner_sign x s t = corner_sign x t s.
Proof. unfold corner_sign. destruct x; [apply Rmax_comm|apply Rmin_comm]. Qed.
Lemma nth_last p : nth (length p - 1) p origin3 = last p origin3.
Proof.
  induction p as [|x l IH]; [reflexivity|]. destruct l as [|y l]; [reflexivity|].
  change (last (x :: y :: l) origin3) with (last (y :: l) origin3). rewrite <- IH. cbn [length].
  replace (S (S (length l)) - 1)%nat with (S (S (length l) - 1)) by lia. reflexivity.
Qed.
Lemma ends_exist p : p <> [] -> exists a b, nth_error p 0 = Some a /\ nth_error p (length p - 1) = Some b /\
  hd origin3 p = a /\ last p origin3 = b.
Proof.
  intros Hp. destruct p as [|a p]; [congruence|]. exists a, (last (a :: p) origin3). split; [reflexivity|]. split; [|now split].
  rewrite nth_error_nth' with (d := origin3) by (cbn; lia). now rewrite nth_last.
Qed.
Lemma open_not_cyclic p : p <> [] -> open_ended p -> is_cyclic p = false.
Proof.
  intros Hp Ho. destruct (ends_exist p Hp) as [a [b [Ha [Hb [Ea Eb]]]]]. unfold is_cyclic. rewrite Ea, Eb. apply rltb_false.
  assert (H := Ho a b Ha Hb). unfold CYCLIC_TOLERANCE. lra.
Qed.
Lemma closed_ends p : p <> [] -> closed p -> hd origin3 p = last p origin3.
Proof. intros Hp Hc. destruct (ends_exist p Hp) as [a [b [Ha [Hb [Ea Eb]]]]]. rewrite Ea, Eb. now apply Hc. Qed.

Lemma local_sign road rows q d : proper road -> road_rows road = Ok rows -> signed_distance_to_polylines 3 rows q = Ok d ->
  (exists a b f, segment_in road a b /\ foot a b q f /\ stretched q f < 10000000000) ->
  exists p i a b f, In p road /\ is_segment p i a b /\ nearest road q a b f /\
    (~ past_start a b q -> ~ past_end a b q -> signed_by d q f (0 < turn3 a b q) (turn3 a b q < 0)) /\
    (past_start a b q -> forall j c, i = S j -> nth_error p j = Some c -> turn3 c a b <> 0 ->
       signed_by d q f (left_of_corner c a b q) (right_of_corner c a b q)) /\
    (past_end a b q -> forall c, nth_error p (S (S i)) = Some c -> turn3 a b c <> 0 ->
       signed_by d q f (left_of_corner a b c q) (right_of_corner a b c q)) /\
    ((past_start a b q /\ i = 0%nat \/ past_end a b q /\ S (S i) = length p) -> open_ended p ->
       signed_by d q f (0 < turn3 a b q) (turn3 a b q < 0)) /\
    (closed p -> longest road p ->
       (past_start a b q -> i = 0%nat -> forall c, nth_error p (length p - 2) = Some c -> turn3 c a b <> 0 ->
          signed_by d q f (left_of_corner c a b q) (right_of_corner c a b q)) /\
       (past_end a b q -> S (S i) = length p -> forall c, nth_error p 1 = Some c -> turn3 a b c <> 0 ->
          signed_by d q f (left_of_corner a b c q) (right_of_corner a b c q))).
Proof.
  intros Hp Hr Hd Hn. destruct (selected road rows q d Hp Hr Hd Hn) as [p [i [a [b [Hin [Hab [Hnear E]]]]]]].
  assert (Nab : xy a <> xy b) by (apply Hp; exists p, i; auto).
  destruct (segment_kept _ _ _ _ _ Hin Hab) as [Hk L]. assert (LN := max_length_le (kept road) p Hk).
  assert (Pne : p <> []) by (intros ->; cbn in L; lia).
  exists p, i, a, b, (the_foot a b q). split; [assumption|]. split; [assumption|]. split; [assumption|].
  split; [|split; [|split; [|split]]].
  - intros H1 H2. rewrite E, (sign_between _ p q a b i Hab Nab H1 H2). apply side_signed.
  - intros H1 j c Hi Hc N. rewrite E, (sign_start_inner _ p q a b i Hab Nab j c H1 Hi Hc). now apply corner_signed.
  - intros H1 c Hc N. rewrite E, (sign_end_inner _ p q a b i LN Hab Nab c H1 Hc), corner_sign_sym. now apply corner_signed.
  - intros H Ho. apply open_not_cyclic in Ho; [|assumption]. rewrite E. destruct H as [[H1 Hi]|[H1 Hi]].
    + rewrite (sign_start_free _ p q a b i Hab Nab H1 Hi Ho). apply side_signed.
    + rewrite (sign_end_free _ p q a b i LN Hab Nab H1 Hi Ho). apply side_signed.
  - intros Hc Hl. apply closed_ends in Hc; [|assumption]. assert (LF := max_length_kept road p Hl Hk). split.
    + intros H1 Hi c Hcc N. rewrite E, (sign_start_closed _ p q a b i LN Hab Nab c H1 Hi LF Hc Hcc). now apply corner_signed.
    + intros H1 Hi c Hcc N. rewrite E, (sign_end_closed _ p q a b i LN Hab Nab c H1 Hi LF Hc Hcc), corner_sign_sym. now apply corner_signed.
Qed.
