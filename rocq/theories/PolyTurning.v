(** A convex polygon is a closed chain: its edges turn once around. *)
From Coq Require Import Reals Lra Psatz List Arith Lia Bool ZArith.
From Verif Require Import Base PolySpec PolySegProofs PolyChain PolyPass PolyPath PolyExact.
Import ListNotations.
Open Scope R_scope.

Definition bearing (z : pt) : R :=
  let l := sqrt (fst z * fst z + snd z * snd z) in
  if Rle_dec 0 (snd z) then acos (fst z / l) else - acos (fst z / l).
Definition len (z : pt) : R := sqrt (fst z * fst z + snd z * snd z).
Lemma bearing_ok z : z <> o -> 0 < len z /\ fst z = len z * cos (bearing z) /\ snd z = len z * sin (bearing z).
Proof.
  intros N. assert (S2 : 0 < fst z * fst z + snd z * snd z).
  { apply nonzero_square. intros [A B]. apply N. apply pt_eq; auto. }
  assert (L : 0 < len z) by (apply sqrt_lt_R0; auto).
  assert (LL : len z * len z = fst z * fst z + snd z * snd z) by (apply sqrt_sqrt; lra).
  split; auto. unfold bearing. fold (len z). set (l := len z) in *. clearbody l.
  set (c := fst z / l).
  assert (Ec : fst z = l * c) by (unfold c; field; lra).
  assert (Es : snd z * snd z = l * l * (1 - c * c)) by (rewrite Ec in LL; lra).
  assert (Pos : 0 <= 1 - c * c).
  { assert (0 <= snd z * snd z) by apply Rle_0_sqr. apply (Rmult_le_reg_l (l * l)); [apply Rmult_lt_0_compat; lra|]. lra. }
  assert (C1 : -1 <= c <= 1) by (split; nra).
  assert (Sq : sqrt (snd z * snd z) = l * sqrt (1 - c * c)).
  { rewrite Es, sqrt_mult by (try apply Rle_0_sqr; auto). rewrite sqrt_square by lra. auto. }
  destruct (Rle_dec 0 (snd z)) as [D|D].
  - rewrite cos_acos, sin_acos by lra. split; auto. unfold Rsqr. rewrite <- Sq. now rewrite sqrt_square.
  - rewrite cos_neg, sin_neg, cos_acos, sin_acos by lra. split; auto. unfold Rsqr.
    replace (l * - sqrt (1 - c * c)) with (- (l * sqrt (1 - c * c))) by ring. rewrite <- Sq.
    replace (snd z * snd z) with ((- snd z) * (- snd z)) by ring. rewrite sqrt_square; lra.
Qed.
(** An angle brought into the half open turn. *)
Definition turns (d : R) : Z := Rdefinitions.up ((- PI - d) / (2 * PI)).
Lemma turns_ok d : - PI < d + IZR (turns d) * (2 * PI) <= PI.
Proof.
  unfold turns. destruct (archimed ((- PI - d) / (2 * PI))) as [A B]. pose proof PI_RGT_0 as Pi.
  set (y := (- PI - d) / (2 * PI)) in *. assert (Y : y * (2 * PI) = - PI - d) by (unfold y; field; lra).
  set (k := IZR (Rdefinitions.up y)) in *. clearbody k y.
  assert (0 < (k - y) * (2 * PI)) by (apply Rmult_lt_0_compat; lra).
  assert (0 <= (1 - (k - y)) * (2 * PI)) by (apply Rmult_le_pos; lra). lra.
Qed.
Lemma cos_turns a k : cos (a + IZR k * (2 * PI)) = cos a /\ sin (a + IZR k * (2 * PI)) = sin a.
Proof.
  assert (P : forall n, cos (a + INR n * (2 * PI)) = cos a /\ sin (a + INR n * (2 * PI)) = sin a).
  { intros n. replace (a + INR n * (2 * PI)) with (a + 2 * INR n * PI) by ring. now rewrite cos_period, sin_period. }
  assert (M : forall n, cos (a - INR n * (2 * PI)) = cos a /\ sin (a - INR n * (2 * PI)) = sin a).
  { intros n. split.
    - rewrite <- (cos_period (a - INR n * (2 * PI)) n). f_equal. ring.
    - rewrite <- (sin_period (a - INR n * (2 * PI)) n). f_equal. ring. }
  destruct (Z_le_gt_dec 0 k) as [K|K].
  - rewrite <- (Z2Nat.id k K), <- INR_IZR_INZ. apply P.
  - replace (IZR k * (2 * PI)) with (- (INR (Z.to_nat (- k)) * (2 * PI))); [apply M|].
    rewrite INR_IZR_INZ, Z2Nat.id by lia. rewrite opp_IZR. ring.
Qed.
Lemma hgt_turns a k z : hgt (a + IZR k * (2 * PI)) z = hgt a z.
Proof. unfold hgt. destruct (cos_turns a k) as [-> ->]. auto. Qed.
Lemma move_turns z s a k : move z s (a + IZR k * (2 * PI)) = move z s a.
Proof. unfold move. destruct (cos_turns a k) as [-> ->]. auto. Qed.

Section Convex.
Variables (L : list pt) (C : convex L).
Notation v := (corner L).
Definition edge (i : nat) : pt := (fst (v (S i)) - fst (v i), snd (v (S i)) - snd (v i)).
Fixpoint theta (i : nat) : R :=
  match i with
  | O => bearing (edge 0)
  | S k => let d := bearing (edge (S k)) - theta k in theta k + (d + IZR (turns d) * (2 * PI))
  end.
Notation n := (length L).
Lemma n3 : (3 <= n)%nat. Proof. apply C. Qed.
Lemma corner_n i : v (i + n) = v i.
Proof. unfold corner. f_equal. rewrite <- (Nat.mul_1_l n) at 1. apply Nat.mod_add. pose proof n3. lia. Qed.
Lemma mod_differ i d : (0 < d < n)%nat -> Nat.modulo (i + d) n <> Nat.modulo i n.
Proof.
  intros D E. pose proof n3.
  pose proof (Nat.div_mod (i + d) n ltac:(lia)). pose proof (Nat.div_mod i n ltac:(lia)).
  rewrite E in H0. assert (n * ((i + d) / n) = n * (i / n) + d)%nat by lia.
  destruct (Nat.lt_trichotomy ((i + d) / n) (i / n)) as [X|[X|X]]; nia.
Qed.
Lemma strictly_left i d : (2 <= d < n)%nat -> 0 < turn (v i) (v (S i)) (v (i + d)).
Proof.
  intros D. apply C; [apply mod_differ; lia|]. replace (i + d)%nat with (S i + (d - 1))%nat by lia. apply mod_differ. lia.
Qed.
Lemma turn_ends a b : turn a b a = 0 /\ turn a b b = 0.
Proof. unfold turn. split; ring. Qed.
Lemma weakly_left i j : 0 <= turn (v i) (v (S i)) (v j).
Proof.
  pose proof n3.
  destruct (Nat.eq_dec (Nat.modulo j n) (Nat.modulo i n)) as [E|E].
  { replace (v j) with (v i) by (unfold corner; now rewrite E). rewrite (proj1 (turn_ends _ _)). lra. }
  destruct (Nat.eq_dec (Nat.modulo j n) (Nat.modulo (S i) n)) as [E'|E'].
  { replace (v j) with (v (S i)) by (unfold corner; now rewrite E'). rewrite (proj2 (turn_ends _ _)). lra. }
  left. now apply C.
Qed.
Lemma edge_nonzero i : edge i <> o.
Proof.
  intros E. pose proof (strictly_left i 2 ltac:(pose proof n3; lia)) as T. unfold edge in E. apply pair_equal_spec in E as [E1 E2].
  unfold turn in T. rewrite E1, E2 in T. lra.
Qed.
Lemma theta_ok i : 0 < len (edge i) /\ v (S i) = move (v i) (len (edge i)) (theta i).
Proof.
  destruct (bearing_ok (edge i) (edge_nonzero i)) as (P & E1 & E2). split; auto.
  assert (cos (theta i) = cos (bearing (edge i)) /\ sin (theta i) = sin (bearing (edge i))) as [T1 T2].
  { destruct i; cbn [theta]; auto. cbv zeta. set (d := bearing (edge (S i)) - theta i).
    replace (theta i + (d + IZR (turns d) * (2 * PI))) with (bearing (edge (S i)) + IZR (turns d) * (2 * PI)) by (unfold d; ring).
    apply cos_turns. }
  unfold move. rewrite T1, T2, <- E1, <- E2. unfold edge. cbn [fst snd]. rewrite (surjective_pairing (v (S i))) at 1. f_equal; ring.
Qed.
Lemma turn_theta i z : turn (v i) (v (S i)) z = len (edge i) * (hgt (theta i) z - hgt (theta i) (v i)).
Proof. destruct (theta_ok i) as [_ E]. rewrite E at 1. apply hgt_turn. Qed.
Lemma sin_next i j : v (S i) = v j -> sin (theta j - theta i) * (len (edge i) * len (edge j)) = turn (v i) (v (S i)) (v (S j)).
Proof.
  intros E. rewrite turn_theta. destruct (theta_ok j) as [_ ->]. rewrite <- E. destruct (theta_ok i) as [_ E']. rewrite E' at 1.
  rewrite !hgt_move. replace (theta i - theta i) with 0 by ring. rewrite sin_0. ring.
Qed.
Lemma sin_next_pos i j : v (S i) = v j -> 0 < turn (v i) (v (S i)) (v (S j)) -> 0 < sin (theta j - theta i).
Proof.
  intros E T. rewrite <- (sin_next i j E) in T. destruct (theta_ok i) as [P1 _], (theta_ok j) as [P2 _].
  assert (0 < len (edge i) * len (edge j)) by now apply Rmult_lt_0_compat.
  destruct (Rlt_le_dec 0 (sin (theta j - theta i))) as [|X]; auto.
  assert (0 <= (- sin (theta j - theta i)) * (len (edge i) * len (edge j))) by (apply Rmult_le_pos; lra). lra.
Qed.
Lemma theta_step i : 0 < theta (S i) - theta i < PI.
Proof.
  pose proof n3. pose proof PI_RGT_0.
  assert (S0 : 0 < sin (theta (S i) - theta i)).
  { apply sin_next_pos; auto. replace (S (S i)) with (i + 2)%nat by lia. apply strictly_left. lia. }
  cbn [theta] in *. cbv zeta in *. set (d := bearing (edge (S i)) - theta i) in *.
  pose proof (turns_ok d) as T. set (e := d + IZR (turns d) * (2 * PI)) in *. replace (theta i + e - theta i) with e in * by ring.
  split.
  - destruct (Rlt_le_dec 0 e) as [|X]; auto. exfalso.
    destruct (Req_dec e 0) as [Z|Z]; [rewrite Z, sin_0 in S0; lra|].
    assert (sin e < 0) by (apply sin_lt_0_var; lra). lra.
  - destruct (Req_dec e PI) as [Z|Z]; [rewrite Z, sin_PI in S0; lra | lra].
Qed.
Lemma theta_mono i j : (i < j)%nat -> theta i < theta j.
Proof. intros L'. induction L' as [|j L' IH]; [pose proof (theta_step i) | pose proof (theta_step j)]; lra. Qed.
Lemma theta_last j : (j < n)%nat -> theta j < theta 0 + 2 * PI.
Proof.
  pose proof PI_RGT_0. induction j as [|j IH]; intros J; [lra|].
  destruct (Rlt_le_dec (theta (S j)) (theta 0 + 2 * PI)) as [|X]; auto. exfalso.
  specialize (IH ltac:(lia)). pose proof (theta_step j) as St. pose proof (theta_step 0) as St0.
  assert (J2 : (2 <= S j)%nat) by (destruct j; [lra | lia]).
  assert (K : hgt (theta 0 + 2 * PI) (v (S j)) <= hgt (theta 0 + 2 * PI) (v 0)).
  { assert (W : forall i z, 0 <= turn (v i) (v (S i)) z -> hgt (theta i) (v i) <= hgt (theta i) z).
    { intros i z T. rewrite turn_theta in T. destruct (theta_ok i) as [P _].
      apply (Rmult_le_reg_l (len (edge i))); auto. lra. }
    apply (cone (theta j) (theta (S j))); try lra.
    - destruct (theta_ok j) as [_ E]. rewrite E, hgt_move. replace (theta j - theta j) with 0 by ring. rewrite sin_0.
      pose proof (W j (v 0) (weakly_left j 0)). lra.
    - apply W, weakly_left. }
  rewrite !hgt_2pi in K.
  pose proof (strictly_left 0 (S j) ltac:(lia)) as T. rewrite turn_theta in T. rewrite Nat.add_0_l in T.
  destruct (theta_ok 0) as [P _].
  assert (0 <= len (edge 0) * (hgt (theta 0) (v 0) - hgt (theta 0) (v (S j)))) by (apply Rmult_le_pos; lra). lra.
Qed.
Theorem convex_chain : exists K, good K /\ reps K L.
Proof.
  pose proof n3 as N. pose proof PI_RGT_0 as Pi.
  set (G := map theta (seq 0 n)). set (M := map (fun i => len (edge i)) (seq 0 n)).
  assert (Gi : forall i, (i < n)%nat -> nth i G 0 = theta i).
  { intros i I. unfold G. rewrite (nth_indep _ 0 (theta 0)) by (rewrite map_length, seq_length; auto).
    rewrite map_nth, seq_nth by auto. f_equal. }
  assert (Mi : forall i, (i < n)%nat -> nth i M 0 = len (edge i)).
  { intros i I. unfold M. rewrite (nth_indep _ 0 (len (edge 0))) by (rewrite map_length, seq_length; auto).
    rewrite (map_nth (fun i => len (edge i))), seq_nth by auto. f_equal. }
  exists (around L G M). split; [|apply around_reps]. apply around_good; auto.
  - intros i I. rewrite Mi, Gi by auto. destruct (theta_ok i) as [P E]. split; auto.
    replace (nth i L o) with (v i) by (unfold corner; now rewrite Nat.mod_small). rewrite <- E. reflexivity.
  - intros i I. rewrite !Gi by lia. apply theta_step.
  - rewrite !Gi by lia. pose proof (theta_last (n - 1) ltac:(lia)) as T. pose proof (theta_mono 0 (n - 1) ltac:(lia)) as M0.
    split; [lra|]. apply sin_pos_range; [lra|].
    assert (E : v (S (n - 1)) = v 0) by (replace (S (n - 1)) with (0 + n)%nat by lia; apply corner_n).
    pose proof (sin_next_pos (n - 1) 0 E) as S0.
    replace (theta 0 + 2 * PI - theta (n - 1)) with (theta 0 - theta (n - 1) + 2 * PI) by ring.
    rewrite sin_plus, cos_2PI, sin_2PI, Rmult_1_r, Rmult_0_r, Rplus_0_r. apply S0.
    replace (v 1) with (v (n - 1 + 2)); [apply strictly_left; lia|].
    replace (n - 1 + 2)%nat with (1 + n)%nat by lia. apply corner_n.
Qed.
End Convex.

(** The same chain with angles some turns further. *)
Definition shift (k : Z) (C : chain) : chain :=
  {| cn := cn C; cv := cv C; ca := fun i => ca C i + IZR k * (2 * PI); cl := cl C |}.
Lemma shift_good k C : good C -> good (shift k C).
Proof.
  intros G. constructor; cbn [shift cn cv ca cl].
  - apply G.
  - apply G.
  - intros i. rewrite (g_a C G). ring.
  - apply G.
  - intros i. pose proof (g_step C G i). lra.
  - apply G.
  - intros i. rewrite move_turns. apply G.
Qed.
Lemma shift_reps k C L : reps C L -> reps (shift k C) L.
Proof. intros H. exact H. Qed.
(** Two convex polygons as chains that start together. *)
Theorem two_chains P Q : convex P -> convex Q ->
  exists A B, good A /\ good B /\ reps A P /\ reps B Q /\ sync A B (cn A) (cn B).
Proof.
  intros CP CQ. destruct (convex_chain P CP) as (A & GA & RA). destruct (convex_chain Q CQ) as (B & GB & RB).
  set (d := ca A 0 - ca B 0). exists A, (shift (- turns d) B).
  split; auto. split; [now apply shift_good|]. split; auto. split; [now apply shift_reps|].
  unfold sync. cbn [shift ca cn].
  pose proof (g_a A GA 0) as E1. pose proof (g_a B GB 0) as E2. rewrite Nat.add_0_l in E1, E2. rewrite E1, E2, opp_IZR.
  pose proof (turns_ok d) as T. unfold d in *. lra.
Qed.
