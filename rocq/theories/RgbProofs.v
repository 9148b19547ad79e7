(** Proofs about the colors of segmentation labels. *)
From Verif Require Import Base ResultLib MonadLib RgbModel RgbSpec.
Open Scope Z_scope.
Open Scope list_scope.

(** * Indexing *)
Lemma index_ok n k i : index n k = Ok i <-> (i < n)%nat /\ (k = Z.of_nat i \/ (k < 0 /\ k + Z.of_nat n = Z.of_nat i)).
Proof.
  unfold index. destruct ((0 <=? k) && (k <? Z.of_nat n)) eqn:E.
  - apply andb_true_iff in E. destruct E as (E1 & E2). split.
    + intros H. apply Ok_inj in H. lia.
    + intros (L & H). f_equal. lia.
  - destruct ((- Z.of_nat n <=? k) && (k <? 0)) eqn:E'.
    + apply andb_true_iff in E'. destruct E' as (E1 & E2). split.
      * intros H. apply Ok_inj in H. lia.
      * intros (L & H). f_equal. lia.
    + split; [discriminate|]. intros (L & H). apply andb_false_iff in E, E'. lia.
Qed.
Lemma index_err n k e : index n k = Err e -> e = IndexError.
Proof. unfold index. destruct (_ && _); [discriminate|]. destruct (_ && _); [discriminate|]. congruence. Qed.
Lemma index_total n k : - Z.of_nat n <= k < Z.of_nat n -> exists i, index n k = Ok i.
Proof.
  intros H. unfold index. destruct ((0 <=? k) && (k <? Z.of_nat n)) eqn:E; [eauto|].
  destruct ((- Z.of_nat n <=? k) && (k <? 0)) eqn:E'; [eauto|]. apply andb_false_iff in E, E'. lia.
Qed.
Lemma lookup_iff m k c : lookup m k = Ok c <-> selects m k c.
Proof.
  unfold lookup, selects. destruct (index (length m) k) as [i|e] eqn:E; cbn [bind].
  - apply index_ok in E. destruct E as (L & H). split.
    + destruct (nth_error m i) as [c'|] eqn:Ei; [|discriminate]. intros Q. apply Ok_inj in Q. subst c'. eauto.
    + intros (j & Hj & H'). assert (j < length m)%nat by (apply nth_error_Some; congruence). assert (j = i) as -> by lia. now rewrite Hj.
  - split; [discriminate|]. intros (j & Hj & H'). assert (j < length m)%nat by (apply nth_error_Some; congruence).
    assert (index (length m) k = Ok j) as Q by (apply index_ok; auto). congruence.
Qed.
Lemma lookup_err m k e : lookup m k = Err e -> e = IndexError.
Proof.
  unfold lookup. destruct (index (length m) k) as [i|e'] eqn:E; cbn [bind].
  - destruct (nth_error m i); congruence.
  - intros Q. apply index_err in E. congruence.
Qed.
Lemma lookup_total m k : in_map m k -> exists c, lookup m k = Ok c.
Proof.
  intros H. destruct (index_total _ _ H) as (i & E). unfold lookup. rewrite E. cbn [bind]. apply index_ok in E. destruct E as (L & _).
  destruct (nth_error m i) eqn:Q; [eauto|]. apply nth_error_None in Q. lia.
Qed.
Lemma selects_in m k c : selects m k c -> in_map m k.
Proof. intros (i & Hi & H). assert (i < length m)%nat by (apply nth_error_Some; congruence). unfold in_map. lia. Qed.
Lemma selects_unique m k c c' : selects m k c -> selects m k c' -> c = c'.
Proof. intros H H'. apply lookup_iff in H, H'. congruence. Qed.

(** * The map *)
Lemma set_nth_length {A} (l : list A) : forall i a, length (set_nth l i a) = length l.
Proof. induction l as [|b l IH]; intros [|i] a; cbn [set_nth length]; congruence. Qed.
Lemma set_nth_nth {A} (l : list A) : forall i a j, (i < length l)%nat ->
  nth_error (set_nth l i a) j = if Nat.eqb j i then Some a else nth_error l j.
Proof.
  induction l as [|b l IH]; intros [|i] a [|j] L; cbn [length set_nth nth_error Nat.eqb] in *; try lia; try reflexivity. apply IH. lia.
Qed.
Lemma u8_byte x : byte x -> u8 x = x.
Proof. intros H. unfold u8. apply Z.mod_small. exact H. Qed.
Lemma u8_bytes c : bytes c -> u8_color c = c.
Proof. intros (H1 & H2 & H3). unfold u8_color. rewrite !u8_byte by assumption. now destruct c as ((a, b), d). Qed.

Lemma assign_all d : forall m n, length m = n -> NoDup (map fst d) -> (forall k c, In (k, c) d -> 0 <= k < Z.of_nat n /\ bytes c) ->
  exists m', foldM assign d m = Ok m' /\ length m' = n /\
    (forall k c, In (k, c) d -> nth_error m' (Z.to_nat k) = Some c) /\
    (forall i, (i < n)%nat -> ~ In (Z.of_nat i) (map fst d) -> nth_error m' i = nth_error m i).
Proof.
  induction d as [|(k, c) d IH]; intros m n L N H; cbn [foldM].
  - exists m. split; [reflexivity|]. split; [exact L|]. split; [intros k c []|]. auto.
  - cbn [map] in N. apply NoDup_cons_iff in N. destruct N as (Nk & N). destruct (H k c (or_introl eq_refl)) as (Hk & Hc).
    assert (index (length m) k = Ok (Z.to_nat k)) as Ei by (apply index_ok; split; [lia|left; lia]).
    unfold assign at 1. cbn [fst snd]. rewrite Ei. cbn [bind]. rewrite (u8_bytes c Hc).
    destruct (IH (set_nth m (Z.to_nat k) c) n) as (m' & E & Lm & H1 & H2); [now rewrite set_nth_length|exact N|intros k' c' Hin; apply H; now right|].
    exists m'. split; [exact E|]. split; [exact Lm|]. split.
    + intros k' c' [Q|Q]; [|now apply H1]. injection Q as -> ->. rewrite H2; [|lia|now rewrite Z2Nat.id by lia].
      rewrite set_nth_nth by lia. now rewrite Nat.eqb_refl.
    + intros i Li Hi. cbn [map fst In] in Hi. rewrite H2; [|exact Li|tauto]. rewrite set_nth_nth by lia.
      destruct (Nat.eqb_spec i (Z.to_nat k)) as [->|D]; [|reflexivity]. exfalso. apply Hi. left. lia.
Qed.

Lemma max_list l : forall a, (forall x, In x (a :: l) -> x <= fold_left Z.max l a) /\ In (fold_left Z.max l a) (a :: l).
Proof.
  induction l as [|b l IH]; intros a; cbn [fold_left].
  - split; [intros x [->|[]]; lia|now left].
  - destruct (IH (Z.max a b)) as (H1 & H2). split.
    + intros x [<-|[<-|Hx]]; [pose proof (H1 (Z.max a b) (or_introl eq_refl)); lia..|]. apply H1. now right.
    + destruct H2 as [Q|Q]; [|right; now right]. rewrite <- Q. destruct (Z.max_spec a b) as [(_ & ->)|(_ & ->)]; [right; now left|now left].
Qed.

Theorem map_rows d : class_colors d -> d <> [] ->
  exists m, generate_color_map (Some d) = Ok m /\
    (forall k c, In (k, c) d -> selects m k c) /\
    (forall k, In k (map fst d) -> k < Z.of_nat (length m)) /\ In (Z.of_nat (length m) - 1) (map fst d) /\
    (forall i, (i < length m)%nat -> ~ In (Z.of_nat i) (map fst d) -> nth_error m i = Some (0, 0, 0)).
Proof.
  intros (N & H) Hne. unfold generate_color_map. destruct d as [|(k0, c0) d]; [contradiction|]. cbn [map fst].
  set (all := (k0, c0) :: d) in *. destruct (max_list (map fst d) k0) as (M1 & M2).
  set (mx := fold_left Z.max (map fst d) k0) in *. change (k0 :: map fst d) with (map fst all) in *.
  assert (0 <= mx) as Hmx. { apply in_map_iff in M2. destruct M2 as ((k, c) & <- & Hin). apply (H k c Hin). }
  destruct (mx + 1 <? 0) eqn:E; [lia|].
  destruct (assign_all all (repeat (0, 0, 0) (Z.to_nat (mx + 1))) (Z.to_nat (mx + 1)) (repeat_length _ _) N) as (m & Em & Lm & H1 & H2).
  { intros k c Hin. destruct (H k c Hin) as (Hk & Hc). split; [|exact Hc]. specialize (M1 k (List.in_map fst _ _ Hin)). lia. }
  exists m. rewrite Lm. split; [exact Em|]. split; [|split; [|split]].
  - intros k c Hin. exists (Z.to_nat k). split; [now apply H1|]. left. destruct (H k c Hin). lia.
  - intros k Hin. specialize (M1 k Hin). lia.
  - replace (Z.of_nat (Z.to_nat (mx + 1)) - 1) with mx by lia. exact M2.
  - intros i Li Hi. rewrite H2 by assumption.
    clear - Li. revert i Li. induction (Z.to_nat (mx + 1)) as [|n IH]; intros [|i] Li; [lia..|reflexivity|]. cbn [repeat nth_error]. apply IH. lia.
Qed.
Theorem empty_map : generate_color_map (Some []) = Err ValueError.
Proof. reflexivity. Qed.

Theorem default_map : generate_color_map None = Ok
  [(0, 0, 0); (102, 102, 102); (0, 0, 142); (0, 0, 70); (0, 60, 100); (61, 133, 198); (119, 11, 32); (0, 0, 230); (111, 168, 220); (220, 20, 60);
   (255, 0, 0); (180, 0, 0); (127, 96, 0); (91, 15, 0); (230, 145, 56); (153, 153, 153); (234, 153, 153); (246, 178, 107); (250, 170, 30); (70, 70, 70);
   (128, 64, 128); (234, 209, 220); (217, 210, 233); (244, 35, 232); (107, 142, 35); (70, 130, 180); (102, 102, 102); (102, 102, 102); (102, 102, 102)].
Proof. reflexivity. Qed.
Definition default_colors : list color := match generate_color_map None with Ok m => m | Err _ => [] end.
Definition gray (i : nat) : bool := Nat.eqb i 1 || Nat.leb 26 i.
Lemma color_eq_dec : forall a b : color, {a = b} + {a <> b}.
Proof. intros ((a1, a2), a3) ((b1, b2), b3). destruct (Z.eq_dec a1 b1), (Z.eq_dec a2 b2), (Z.eq_dec a3 b3); [left; congruence|right; congruence..]. Defined.
Definition pairs_ok (m : list color) : bool :=
  forallb (fun p => forallb (fun q => implb (if color_eq_dec (snd p) (snd q) then true else false)
      (Nat.eqb (fst p) (fst q) || gray (fst p) && gray (fst q))) (combine (seq 0 (length m)) m)) (combine (seq 0 (length m)) m).
Lemma nth_numbered {A} (l : list A) : forall s i a, nth_error l i = Some a -> In ((s + i)%nat, a) (combine (seq s (length l)) l).
Proof.
  induction l as [|b l IH]; intros s [|i] a H; try discriminate.
  - injection H as <-. cbn [length seq combine]. left. f_equal. lia.
  - cbn [length seq combine]. right. replace (s + S i)%nat with (S s + i)%nat by lia. apply IH. exact H.
Qed.
Lemma pairs_check m : pairs_ok m = true -> forall i j c, nth_error m i = Some c -> nth_error m j = Some c -> i = j \/ (gray i && gray j = true).
Proof.
  intros H i j c Hi Hj. unfold pairs_ok in H. rewrite forallb_forall in H.
  specialize (H _ (nth_numbered m 0 i c Hi)). rewrite forallb_forall in H. specialize (H _ (nth_numbered m 0 j c Hj)).
  cbn [fst snd Nat.add] in H. destruct (color_eq_dec c c) as [_|D]; [|contradiction]. cbn [implb] in H. apply orb_true_iff in H.
  destruct H as [H|H]; [left; now apply Nat.eqb_eq|now right].
Qed.
Theorem same_color m : generate_color_map None = Ok m -> forall i j c, nth_error m i = Some c ->
  (nth_error m j = Some c <-> i = j \/ (In i [1; 26; 27; 28]%nat /\ In j [1; 26; 27; 28]%nat)).
Proof.
  intros H i j c Hi. assert (m = default_colors) as -> by (unfold default_colors; now rewrite H).
  assert (forall k, (exists c', nth_error default_colors k = Some c') -> gray k = true -> In k [1; 26; 27; 28]%nat) as G.
  { intros k (c' & Hk) Q. assert (k < 29)%nat as L by (change 29%nat with (length default_colors); apply nth_error_Some; congruence).
    unfold gray in Q. apply orb_true_iff in Q. rewrite Nat.eqb_eq, Nat.leb_le in Q. cbn [In]. lia. }
  split.
  - intros Hj. destruct (pairs_check default_colors eq_refl i j c Hi Hj) as [|Q]; [now left|right]. apply andb_true_iff in Q. destruct Q as (Q1 & Q2). split; apply G; eauto.
  - intros [<-|(A & B)]; [exact Hi|]. assert (c = (102, 102, 102)) as ->.
    { cbn [In] in A. destruct A as [<-|[<-|[<-|[<-|[]]]]]; vm_compute in Hi; congruence. }
    cbn [In] in B. destruct B as [<-|[<-|[<-|[<-|[]]]]]; reflexivity.
Qed.

(** * Semantic colors *)
Lemma mapM_pixels {A B} (f : A -> result B) rows out : mapM (mapM f) rows = Ok out ->
  same_shape rows out /\ forall y x a, pixel rows y x a -> exists b, pixel out y x b /\ f a = Ok b.
Proof.
  intros H. apply mapM_inv in H. split.
  - unfold same_shape. induction H as [|r r' rows out Hr _ IH]; [reflexivity|]. cbn [map]. f_equal; [|exact IH]. symmetry. exact (mapM_length _ _ _ Hr).
  - intros y x a (r & Hr & Ha). destruct (Forall2_nth _ _ _ H _ _ Hr) as (r' & Hr' & E). apply mapM_inv in E.
    destruct (Forall2_nth _ _ _ E _ _ Ha) as (b & Hb & Eb). exists b. split; [exists r'; auto|exact Eb].
Qed.
Lemma mapM_total {A B} (f : A -> result B) l : (forall a, In a l -> exists b, f a = Ok b) -> exists r, mapM f l = Ok r.
Proof.
  induction l as [|a l IH]; intros H; [eexists; reflexivity|]. cbn [mapM]. destruct (H a (or_introl eq_refl)) as (b & ->). cbn [bind].
  destruct IH as (r & ->); [intros a' Ha; apply H; now right|]. eexists. reflexivity.
Qed.
Lemma mapM_err {A B} (f : A -> result B) l e : mapM f l = Err e -> exists a, In a l /\ f a = Err e.
Proof.
  induction l as [|a l IH]; cbn [mapM]; [discriminate|]. destruct (f a) as [b|e'] eqn:E; cbn [bind].
  - destruct (mapM f l) as [r|e'']; cbn [bind]; [discriminate|]. intros Q. destruct IH as (a' & Ha & Ea); [exact Q|]. exists a'. split; [now right|exact Ea].
  - intros [= ->]. exists a. split; [now left|exact E].
Qed.
Lemma rows_pixels {A} (rows : list (list A)) r a : In r rows -> In a r -> exists y x, pixel rows y x a.
Proof. intros H H'. apply In_nth_error in H, H'. destruct H as (y & H), H' as (x & H'). exists y, x, r. auto. Qed.

Theorem semantic_pixels w rows m : w <> 1%nat ->
  (forall y x k, pixel rows y x k -> in_map m k) ->
  exists out, semantic_label_to_rgb (A2 w rows) m = Ok (C2 out) /\ semantic_label_to_rgb (A3 w rows) m = Ok (C2 out) /\
    same_shape rows out /\ forall y x k c, pixel rows y x k -> selects m k c -> pixel out y x c.
Proof.
  intros Hw H. destruct (mapM_total (mapM (lookup m)) rows) as (out & E).
  { intros r Hr. apply mapM_total. intros k Hk. destruct (rows_pixels rows r k Hr Hk) as (y & x & Hp). apply lookup_total. eauto. }
  exists out. unfold semantic_label_to_rgb. cbn [squeeze_last bind].
  assert (squeeze_last (A2 w rows) = Ok (A2 w rows)) as Ew by (destruct w as [|[|w]]; [reflexivity|contradiction|reflexivity]). cbn [squeeze_last] in Ew.
  rewrite Ew. cbn [bind]. rewrite E. cbn [bind]. split; [reflexivity|]. split; [reflexivity|].
  destruct (mapM_pixels _ _ _ E) as (S1 & S2). split; [exact S1|]. intros y x k c Hp Hs. destruct (S2 y x k Hp) as (c' & Hc & El).
  apply lookup_iff in Hs. congruence.
Qed.
Theorem semantic_unknown a m y x k rows w : (a = A2 w rows \/ a = A3 w rows) -> pixel rows y x k -> ~ in_map m k ->
  semantic_label_to_rgb a m = Err IndexError.
Proof.
  intros Ha (r & Hr & Hk) Hn.
  assert (forall l, In k l -> mapM (lookup m) l = Err IndexError) as Q1.
  { intros l Hl. destruct (mapM (lookup m) l) as [cs|e] eqn:E.
    - exfalso. apply mapM_inv in E. apply In_nth_error in Hl. destruct Hl as (i & Hi). destruct (Forall2_nth _ _ _ E _ _ Hi) as (c & _ & Ec).
      apply lookup_iff, selects_in in Ec. contradiction.
    - destruct (mapM_err _ _ _ E) as (k' & _ & E'). apply lookup_err in E'. congruence. }
  assert (mapM (mapM (lookup m)) rows = Err IndexError) as Q2.
  { destruct (mapM (mapM (lookup m)) rows) as [cs|e] eqn:E.
    - exfalso. apply mapM_inv in E. destruct (Forall2_nth _ _ _ E _ _ Hr) as (c & _ & Ec). rewrite Q1 in Ec; [discriminate|]. eapply nth_error_In; eassumption.
    - destruct (mapM_err _ _ _ E) as (r' & _ & E'). destruct (mapM_err _ _ _ E') as (k' & _ & E''). apply lookup_err in E''. congruence. }
  assert (In k (concat rows)) as Hc by (apply in_concat; exists r; split; eapply nth_error_In; eassumption).
  assert (lookup m k = Err IndexError) as Q0.
  { destruct (lookup m k) as [c|e] eqn:E; [apply lookup_iff, selects_in in E; contradiction|]. apply lookup_err in E. congruence. }
  unfold semantic_label_to_rgb. destruct Ha as [->| ->]; cbn [squeeze_last].
  - destruct w as [|[|w]]; cbn [bind]; [now rewrite Q2| |now rewrite Q2]. rewrite Q1 by exact Hc. reflexivity.
  - cbn [bind]. now rewrite Q2.
Qed.
Theorem narrow_semantic rows m : rectangular 1 rows -> (forall y x k, pixel rows y x k -> in_map m k) ->
  exists out, semantic_label_to_rgb (A2 1 rows) m = Ok (C1 out) /\ length out = length rows /\
    forall y k c, pixel rows y 0 k -> selects m k c -> nth_error out y = Some c.
Proof.
  intros Hw H. unfold semantic_label_to_rgb. cbn [squeeze_last bind].
  assert (exists l, rows = map (fun k => [k]) l) as (l & ->).
  { clear H. induction rows as [|r rows IH]; [now exists []|]. destruct IH as (l & ->); [intros r' Hr; apply Hw; now right|].
    pose proof (Hw r (or_introl eq_refl)) as L. destruct r as [|k [|k' r]]; try discriminate. now exists (k :: l). }
  assert (concat (map (fun k => [k]) l) = l) as -> by (clear; induction l as [|k l IH]; [reflexivity|]; cbn [map concat app]; now rewrite IH).
  destruct (mapM_total (lookup m) l) as (out & E).
  { intros k Hk. apply lookup_total. destruct (rows_pixels (map (fun k => [k]) l) [k] k) as (y & x & Hp); [now apply (List.in_map (fun k => [k]))|now left|]. eauto. }
  rewrite E. cbn [bind]. exists out. split; [reflexivity|]. split; [rewrite map_length; exact (mapM_length _ _ _ E)|].
  intros y k c (r & Hr & Hk) Hs. rewrite nth_error_map' in Hr. destruct (nth_error l y) as [k'|] eqn:El; [|discriminate]. cbn [option_map] in Hr.
  injection Hr as <-. cbn in Hk. injection Hk as ->. apply mapM_inv in E. destruct (Forall2_nth _ _ _ E _ _ El) as (c' & Hc & Ec). apply lookup_iff in Hs. congruence.
Qed.

(** * Instance colors *)
Lemma pow_bits b : b = 8 \/ b = 16 \/ b = 32 \/ b = 64 -> exists q, 2 ^ b = q * 256 /\ 0 < q.
Proof. intros [->|[->|[->| ->]]]; [exists 1|exists 256|exists 16777216|exists 72057594037927936]; split; reflexivity. Qed.
Lemma wrap_byte t x : numpy_integer t -> (wrap t x) mod 256 = x mod 256.
Proof.
  intros H. destruct (pow_bits _ H) as (q & E & Hq). unfold wrap. destruct (signed t).
  - set (h := 2 ^ (bits t - 1)). rewrite (Z.mod_eq (x + h)) by lia.
    replace (x + h - 2 ^ bits t * ((x + h) / 2 ^ bits t) - h) with (x + (- (q * ((x + h) / 2 ^ bits t))) * 256) by (rewrite E; ring). apply Z_mod_plus_full.
  - rewrite (Z.mod_eq x (2 ^ bits t)) by lia. replace (x - 2 ^ bits t * (x / 2 ^ bits t)) with (x + (- (q * (x / 2 ^ bits t))) * 256) by (rewrite E; ring). apply Z_mod_plus_full.
Qed.
Lemma wrap_fits t x : numpy_integer t -> fits t x -> wrap t x = x.
Proof.
  intros H F. unfold wrap, fits in *. destruct (signed t); [|now apply Z.mod_small].
  rewrite Z.mod_small; [lia|]. assert (2 ^ bits t = 2 * 2 ^ (bits t - 1)) as -> by (replace (bits t) with (Z.succ (bits t - 1)) at 1 by lia; apply Z.pow_succ_r; destruct H as [->|[->|[->| ->]]]; lia). lia.
Qed.
Lemma with_uint8_numpy t : numpy_integer t -> numpy_integer (with_uint8 t).
Proof. intros H. unfold numpy_integer, with_uint8 in *. cbn [bits]. destruct (signed t); destruct H as [->|[->|[->| ->]]]; cbn; auto. Qed.
Lemma mod_add a b c : a mod 256 = b mod 256 -> (c + a) mod 256 = (c + b) mod 256.
Proof. intros H. rewrite (Zplus_mod c a), (Zplus_mod c b), H. reflexivity. Qed.

Lemma noise_byte t i : numpy_integer t -> (ins_noise t 41 50 i) mod 256 = ((wrap t (i * 41)) mod 100 - 50) mod 256.
Proof.
  intros H. unfold ins_noise. rewrite wrap_byte by exact H. change (50 * 2) with 100.
  rewrite (Zminus_mod (wrap t (wrap t (i * 41) mod 100))), (Zminus_mod (wrap t (i * 41) mod 100) 50). now rewrite wrap_byte.
Qed.
Lemma shift_value t i c : numpy_integer t -> bytes c -> shift_color t 41 50 i c =
  (red c, if 0 <? i then (green c + (wrap t (i * 41)) mod 100 - 50) mod 256 else green c, blue c).
Proof.
  intros H (_ & Hg & _). unfold shift_color, u8. destruct (0 <? i).
  - rewrite wrap_byte by now apply with_uint8_numpy. rewrite (mod_add _ _ _ (noise_byte t i H)).
    replace (green c + wrap t (i * 41) mod 100 - 50) with (green c + (wrap t (i * 41) mod 100 - 50)) by lia.
    reflexivity.
  - now rewrite Z.mod_small.
Qed.
Lemma shift_fits t i c : numpy_integer t -> bytes c -> fits t (41 * i) -> shift_color t 41 50 i c =
  (red c, if 0 <? i then (shifted_green (green c) i) mod 256 else green c, blue c).
Proof. intros H Hc F. rewrite shift_value by assumption. rewrite (Z.mul_comm i 41), wrap_fits by assumption. reflexivity. Qed.
Lemma clip_id c : bytes c -> clip_color c = c.
Proof. intros ((A1 & A2) & (B1 & B2) & (C1' & C2')). unfold clip_color. destruct c as ((a, b), d). unfold red, green, blue in *. cbn [fst snd] in *. repeat f_equal; lia. Qed.
Lemma shift_bytes t i c : bytes c -> bytes (shift_color t 41 50 i c).
Proof.
  intros (H1 & H2 & H3). unfold shift_color. split; [exact H1|]. split; [|exact H3]. unfold green. cbn [fst snd]. unfold u8, byte.
  apply Z.mod_pos_bound. reflexivity.
Qed.

Lemma zip_row_ok f is : forall cs, length is = length cs -> exists out, zip_row f is cs = Ok out /\ length out = length is /\
  forall x i c, nth_error is x = Some i -> nth_error cs x = Some c -> nth_error out x = Some (f i c).
Proof.
  induction is as [|i is IH]; intros [|c cs] L; try discriminate; cbn [zip_row].
  - exists []. split; [reflexivity|]. split; [reflexivity|]. intros [|x]; discriminate.
  - destruct (IH cs) as (out & E & Lo & H); [now injection L|]. rewrite E. cbn [bind]. exists (f i c :: out). split; [reflexivity|]. split; [cbn [length]; congruence|].
    intros [|x] i' c' Hi Hc; cbn in *; [congruence|]. now apply H.
Qed.
Lemma zip_rows_ok f is : forall cs, same_shape is cs -> exists out, zip_rows f is cs = Ok out /\ same_shape is out /\
  forall y x i c, pixel is y x i -> pixel cs y x c -> pixel out y x (f i c).
Proof.
  induction is as [|r is IH]; intros [|r' cs] L; try discriminate; cbn [zip_rows].
  - exists []. split; [reflexivity|]. split; [reflexivity|]. intros [|y] x i c (q & Hq & _); discriminate.
  - unfold same_shape in L. cbn [map] in L. injection L as L1 L2. destruct (zip_row_ok f r r' L1) as (o & Eo & Lo & Ho). rewrite Eo. cbn [bind].
    destruct (IH cs L2) as (out & E & Ls & H). rewrite E. cbn [bind]. exists (o :: out). split; [reflexivity|].
    split; [unfold same_shape in *; cbn [map]; f_equal; [now symmetry|exact Ls]|].
    intros [|y] x i c (q & Hq & Hi) (q' & Hq' & Hc).
    + injection Hq as <-. injection Hq' as <-. exists o. split; [reflexivity|]. now apply Ho.
    + destruct (H y x i c) as (q2 & A & B); [exists q; auto|exists q'; auto|]. exists q2. auto.
Qed.
Lemma pixel_map {A B} (f : A -> B) rows y x a : pixel rows y x a -> pixel (map (map f) rows) y x (f a).
Proof. intros (r & Hr & Ha). exists (map f r). rewrite !nth_error_map', Hr, Ha. auto. Qed.
Lemma shape_map {A B} (f : A -> B) rows : same_shape rows (map (map f) rows).
Proof. unfold same_shape. rewrite map_map. apply map_ext. intros r. symmetry. apply map_length. Qed.

Theorem panoptic_pixels w sem ins m t : w <> 1%nat -> numpy_integer t -> same_shape sem ins ->
  (forall c, In c m -> bytes c) -> (forall y x k, pixel sem y x k -> in_map m k) ->
  exists out, panoptic_label_to_rgb (A2 w sem) (A2 w ins) m t 41 50 = Ok (C2 out) /\
    panoptic_label_to_rgb (A3 w sem) (A3 w ins) m t 41 50 = Ok (C2 out) /\ same_shape sem out /\
    forall y x k i c, pixel sem y x k -> pixel ins y x i -> selects m k c -> fits t (41 * i) ->
      pixel out y x (red c, if 0 <? i then (shifted_green (green c) i) mod 256 else green c, blue c).
Proof.
  intros Hw Ht Hs Hm Hin. destruct (semantic_pixels w sem m Hw Hin) as (img & E & _ & Si & Hp).
  assert (forall a, squeeze_last (A2 w a) = Ok (A2 w a)) as Ew by (intros a; destruct w as [|[|w]]; [reflexivity|contradiction|reflexivity]).
  destruct (zip_rows_ok (shift_color t 41 50) ins img) as (out & Eo & So & Ho); [unfold same_shape in *; congruence|].
  exists (map (map clip_color) out). unfold panoptic_label_to_rgb. rewrite !Ew. cbn [bind]. rewrite E. cbn [bind]. rewrite Eo. cbn [bind]. split; [reflexivity|].
  split; [cbn [squeeze_last bind]; rewrite E; cbn [bind]; rewrite Eo; reflexivity|].
  split; [unfold same_shape in *; pose proof (shape_map clip_color out) as Q; unfold same_shape in Q; congruence|].
  intros y x k i c Hk Hi Hsel F. pose proof (Ho y x i c Hi (Hp y x k c Hk Hsel)) as Hpix. apply (pixel_map clip_color) in Hpix.
  assert (bytes c) as Hc by (destruct Hsel as (j & Hj & _); apply Hm; eapply nth_error_In; eassumption).
  rewrite clip_id in Hpix by now apply shift_bytes. rewrite shift_fits in Hpix by assumption. exact Hpix.
Qed.

Theorem narrow_panoptic sem ins m t p d a b : rectangular 1 sem -> (a = A2 1 sem \/ a = A3 1 sem) -> (b = A2 1 ins \/ b = A3 1 ins) ->
  panoptic_label_to_rgb a b m t p d = Err IndexError.
Proof.
  intros Hr Ha Hb. unfold panoptic_label_to_rgb.
  assert (forall l, match (do c <- mapM (lookup m) l; Ok (C1 c)) with Ok (C1 _) => True | Err e => e = IndexError | _ => False end) as Q.
  { intros l. destruct (mapM (lookup m) l) as [cs|e] eqn:E; cbn [bind]; [exact I|]. destruct (mapM_err _ _ _ E) as (k & _ & E'). now apply lookup_err in E'. }
  assert (exists x, squeeze_last b = Ok x) as (x & Ex) by (destruct Hb as [->| ->]; eexists; reflexivity).
  destruct Ha as [->| ->]; cbn [squeeze_last bind]; rewrite Ex; cbn [bind].
  - unfold semantic_label_to_rgb. destruct (concat sem) as [|z [|z' l]]; cbn [squeeze_last bind].
    + reflexivity.
    + destruct (lookup m z) as [c|e] eqn:E; cbn [bind]; [reflexivity|]. apply lookup_err in E. congruence.
    + specialize (Q (z :: z' :: l)). destruct (mapM (lookup m) (z :: z' :: l)) as [cs|e]; cbn [bind] in *; [reflexivity|congruence].
  - unfold semantic_label_to_rgb. cbn [squeeze_last bind].
    specialize (Q (concat sem)). destruct (mapM (lookup m) (concat sem)) as [cs|e]; cbn [bind] in *; [reflexivity|congruence].
Qed.

(** * Telling instances apart *)
Theorem instances_apart g i j : byte g -> 0 < i -> 0 < j ->
  ((shifted_green g i) mod 256 = (shifted_green g j) mod 256 <-> i mod 100 = j mod 100).
Proof.
  intros Hg Hi Hj. unfold shifted_green. set (a := (41 * i) mod 100). set (b := (41 * j) mod 100).
  assert (0 <= a < 100) as Ha by (apply Z.mod_pos_bound; reflexivity). assert (0 <= b < 100) as Hb by (apply Z.mod_pos_bound; reflexivity).
  assert ((g + a - 50) mod 256 = (g + b - 50) mod 256 <-> a = b) as ->.
  { split; [|now intros ->]. intros H.
    assert (((g + a - 50) - (g + b - 50)) mod 256 = 0) as Q by (rewrite Zminus_mod, H, Z.sub_diag; reflexivity).
    replace (g + a - 50 - (g + b - 50)) with (a - b) in Q by lia. apply Z.mod_divide in Q; [|lia]. destruct Q as (q & Q). lia. }
  assert (i mod 100 = (61 * a) mod 100) as ->.
  { unfold a. rewrite Z.mul_mod_idemp_r by lia. replace (61 * (41 * i)) with (i + (25 * i) * 100) by ring. symmetry. apply Z_mod_plus_full. }
  assert (j mod 100 = (61 * b) mod 100) as ->.
  { unfold b. rewrite Z.mul_mod_idemp_r by lia. replace (61 * (41 * j)) with (j + (25 * j) * 100) by ring. symmetry. apply Z_mod_plus_full. }
  split; [now intros ->|]. intros H.
  assert ((41 * ((61 * a) mod 100)) mod 100 = (41 * ((61 * b) mod 100)) mod 100) as Q by now rewrite H.
  rewrite !Z.mul_mod_idemp_r in Q by lia. replace (41 * (61 * a)) with (a + (25 * a) * 100) in Q by ring. replace (41 * (61 * b)) with (b + (25 * b) * 100) in Q by ring.
  rewrite !Z_mod_plus_full in Q. rewrite !Z.mod_small in Q by assumption. exact Q.
Qed.
Theorem clipped_iff g i : byte g ->
  ((shifted_green g i) mod 256 = Z.min (Z.max (shifted_green g i) 0) 255 <-> 0 <= shifted_green g i <= 255).
Proof.
  intros Hg. assert (-50 <= shifted_green g i < 306) as B.
  { unfold shifted_green. pose proof (Z.mod_pos_bound (41 * i) 100 ltac:(lia)). unfold byte in Hg. lia. }
  generalize dependent (shifted_green g i). intros v B. split.
  - intros H. destruct (Z_lt_le_dec v 0) as [L|L].
    + replace (v mod 256) with (v + 256) in H; [lia|]. symmetry. rewrite <- (Z_mod_plus_full v 1 256). apply Z.mod_small. lia.
    + destruct (Z_lt_le_dec 255 v) as [L'|L']; [|lia]. replace (v mod 256) with (v - 256) in H; [lia|].
      symmetry. rewrite <- (Z_mod_plus_full v (-1) 256). apply Z.mod_small. lia.
  - intros H. rewrite Z.mod_small by lia. lia.
Qed.
Theorem clip_refuted : exists m, generate_color_map None = Ok m /\
  selects m 9 (220, 20, 60) /\ shifted_green 20 5 = -25 /\
  panoptic_label_to_rgb (A2 2 [[9; 9]]) (A2 2 [[5; 0]]) m {| signed := true; bits := 32 |} PRIME_NUM MAX_DELTA = Ok (C2 [[(220, 231, 60); (220, 20, 60)]]).
Proof. eexists. split; [reflexivity|]. split; [exists 9%nat; split; [reflexivity|now left]|]. split; reflexivity. Qed.
Theorem small_type_refuted : exists m, generate_color_map None = Ok m /\
  ~ fits {| signed := false; bits := 8 |} (41 * 7) /\ shifted_green 60 7 = 97 /\
  panoptic_label_to_rgb (A2 2 [[4; 4]]) (A2 2 [[7; 7]]) m {| signed := false; bits := 8 |} PRIME_NUM MAX_DELTA = Ok (C2 [[(0, 41, 100); (0, 41, 100)]]).
Proof. eexists. split; [reflexivity|]. split; [unfold fits; cbn; lia|]. split; reflexivity. Qed.

(** * Labels of different sizes *)
Lemma zip_row_err f is : forall cs, length is <> length cs -> zip_row f is cs = Err ValueError.
Proof. induction is as [|i is IH]; intros [|c cs] H; cbn [zip_row]; try reflexivity; [contradiction|]. rewrite IH; [reflexivity|]. cbn [length] in H. congruence. Qed.
Lemma zip_rows_err f is : forall cs, ~ same_shape is cs -> zip_rows f is cs = Err ValueError.
Proof.
  induction is as [|r is IH]; intros [|r' cs] H; cbn [zip_rows]; try reflexivity; [now destruct H|].
  destruct (Nat.eq_dec (length r) (length r')) as [L|L]; [|now rewrite zip_row_err].
  destruct (zip_row_ok f r r' L) as (o & -> & _). cbn [bind]. rewrite IH; [reflexivity|]. intros Q. apply H. unfold same_shape in *. cbn [map]. congruence.
Qed.
Theorem sizes_differ w w' sem ins m t p d : w <> 1%nat -> w' <> 1%nat -> ~ same_shape sem ins ->
  (forall y x k, pixel sem y x k -> in_map m k) ->
  panoptic_label_to_rgb (A2 w sem) (A2 w' ins) m t p d = Err ValueError /\ panoptic_label_to_rgb (A3 w sem) (A3 w' ins) m t p d = Err ValueError.
Proof.
  intros Hw Hw' Hs Hin. destruct (semantic_pixels w sem m Hw Hin) as (img & E & _ & Si & _).
  assert (forall v a, v <> 1%nat -> squeeze_last (A2 v a) = Ok (A2 v a)) as Ew by (intros v a Hv; destruct v as [|[|v]]; [reflexivity|contradiction|reflexivity]).
  assert (zip_rows (shift_color t p d) ins img = Err ValueError) as Q by (apply zip_rows_err; unfold same_shape in *; congruence).
  unfold panoptic_label_to_rgb. rewrite !Ew by assumption. cbn [squeeze_last bind]. rewrite E. cbn [bind]. rewrite Q. split; reflexivity.
Qed.
