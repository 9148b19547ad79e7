(** The model on polygons with rational corners, where it can be run. *)
From Coq Require Import Reals Qreals QArith Lra List Arith Lia Bool.
From Verif Require Import Base GeomModel GeomBase PolyModel PolySpec PolySegProofs PolyPass PolyPath PolyTurning PolyInside.
Import ListNotations.
Open Scope R_scope.

Notation qpt := (Q * Q)%type.
Definition inj (p : qpt) : pt := (Q2R (fst p), Q2R (snd p)).
Definition q_lt (a b : Q) : bool := negb (Qle_bool b a).
Definition q_max (a b : Q) : Q := if Qle_bool a b then b else a.
Definition q_min (a b : Q) : Q := if Qle_bool a b then a else b.
Definition q_abs (a : Q) : Q := if Qle_bool 0 a then a else (- a)%Q.
Lemma r_eq a b : reqb (Q2R a) (Q2R b) = Qeq_bool a b.
Proof.
  unfold reqb. destruct (Req_EM_T (Q2R a) (Q2R b)) as [E|E]; destruct (Qeq_bool a b) eqn:B; auto; exfalso.
  - apply eqR_Qeq in E. apply Qeq_bool_iff in E. congruence.
  - apply E, Qeq_eqR, Qeq_bool_iff, B.
Qed.
Lemma r_le a b : rleb (Q2R a) (Q2R b) = Qle_bool a b.
Proof.
  destruct (Qle_bool a b) eqn:E.
  - apply rleb_iff, Qle_Rle, Qle_bool_iff, E.
  - destruct (rleb (Q2R a) (Q2R b)) eqn:F; auto. apply rleb_iff, Rle_Qle, Qle_bool_iff in F. congruence.
Qed.
Lemma r_lt a b : rltb (Q2R a) (Q2R b) = q_lt a b.
Proof.
  unfold q_lt. rewrite <- r_le. destruct (rleb_cases (Q2R b) (Q2R a)) as [(-> & U)|(-> & U)]; cbn [negb].
  - apply rltb_false. lra. - apply rltb_iff. lra.
Qed.
Lemma r_max a b : Rmax (Q2R a) (Q2R b) = Q2R (q_max a b).
Proof.
  unfold q_max. destruct (Qle_bool a b) eqn:E.
  - apply Rmax_right, Qle_Rle, Qle_bool_iff, E.
  - apply Rmax_left. rewrite <- r_le in E. destruct (rleb_cases (Q2R a) (Q2R b)) as [(F & U)|(F & U)]; [congruence | lra].
Qed.
Lemma r_min a b : Rmin (Q2R a) (Q2R b) = Q2R (q_min a b).
Proof.
  unfold q_min. destruct (Qle_bool a b) eqn:E.
  - apply Rmin_left, Qle_Rle, Qle_bool_iff, E.
  - apply Rmin_right. rewrite <- r_le in E. destruct (rleb_cases (Q2R a) (Q2R b)) as [(F & U)|(F & U)]; [congruence | lra].
Qed.
Lemma r_0 : 0 = Q2R 0. Proof. unfold Q2R; cbn. lra. Qed.
Lemma r_1 : 1 = Q2R 1. Proof. unfold Q2R; cbn. lra. Qed.
Lemma r_m1 : -1 = Q2R (-1). Proof. unfold Q2R; cbn. lra. Qed.
Lemma r_abs a : Rabs (Q2R a) = Q2R (q_abs a).
Proof.
  unfold q_abs. destruct (Qle_bool 0 a) eqn:E.
  - apply Rabs_right, Rle_ge. rewrite r_0. apply Qle_Rle, Qle_bool_iff, E.
  - rewrite Q2R_opp. apply Rabs_left1. rewrite r_0. rewrite <- r_le in E.
    destruct (rleb_cases (Q2R 0) (Q2R a)) as [(F & U)|(F & U)]; [congruence | lra].
Qed.
Definition q_epsilon : Q := (1 # 1125899906842624)%Q.
Lemma r_epsilon : kCrossExactEpsilon = Q2R q_epsilon.
Proof. unfold kCrossExactEpsilon, Q2R, q_epsilon; cbn [Qnum Qden]. replace (2 ^ 50) with 1125899906842624 by lra. lra. Qed.

Definition q_peqb (a b : qpt) : bool := Qeq_bool (fst a) (fst b) && Qeq_bool (snd a) (snd b).
Lemma r_peqb a b : peqb (inj a) (inj b) = q_peqb a b.
Proof.
  unfold peqb, q_peqb, inj; cbn [fst snd]. rewrite <- !r_eq. unfold reqb.
  destruct (Req_EM_T _ _); destruct (Req_EM_T _ _); reflexivity.
Qed.
Definition q_cross (p0 p1 q0 q1 : qpt) : Q :=
  Qred (if q_peqb p0 p1 || q_peqb q0 q1 then 0 else
  (fst p1 - fst p0) * (snd q1 - snd q0) - (snd p1 - snd p0) * (fst q1 - fst q0))%Q.
Lemma q_red a : Q2R (Qred a) = Q2R a.
Proof. apply Qeq_eqR, Qred_correct. Qed.
Lemma r_cross a b c d : cross_maybe_exact (inj a) (inj b) (inj c) (inj d) = Q2R (q_cross a b c d).
Proof.
  rewrite exact_cross. unfold q_cross. rewrite q_red.
  destruct (q_peqb a b || q_peqb c d) eqn:E.
  - apply orb_true_iff in E. rewrite <- !r_peqb, !peqb_iff in E. unfold cross4, cross, psub.
    rewrite <- r_0. destruct E as [-> | ->]; cbn [fst snd]; ring.
  - unfold cross4, cross, psub, inj; cbn [fst snd]. rewrite !Q2R_minus, !Q2R_mult, !Q2R_minus. reflexivity.
Qed.
Definition q_colinear (p0 p1 q : qpt) : option qpt :=
  if Qle_bool (q_min (fst p0) (fst p1)) (fst q) && Qle_bool (fst q) (q_max (fst p0) (fst p1)) &&
     Qle_bool (q_min (snd p0) (snd p1)) (snd q) && Qle_bool (snd q) (q_max (snd p0) (snd p1)) then Some q else None.
Lemma r_colinear a b c : colinear_point (inj a) (inj b) (inj c) = option_map inj (q_colinear a b c).
Proof.
  unfold colinear_point, q_colinear, inj at 1 2 3 4 5 6 7 8 9 10 11 12; cbn [fst snd]. rewrite !r_min, !r_max, !r_le.
  destruct (_ && _ && _ && _); reflexivity.
Qed.
Lemma r_or (a b : option qpt) : or_else (option_map inj a) (option_map inj b) = option_map inj (or_else a b).
Proof. now destruct a. Qed.
Definition q_exact (p0 p1 q0 q1 : qpt) (det : Q) : option qpt :=
  if Qeq_bool det 0 then
    if negb (Qeq_bool (q_cross p0 p1 p0 q0) 0) then None else
    or_else (q_colinear q0 q1 p0) (or_else (q_colinear q0 q1 p1) (or_else (q_colinear p0 p1 q0) (q_colinear p0 p1 q1)))
  else
    let detsign := if q_lt det 0 then (-1)%Q else 1%Q in
    let epsilon := (q_max (q_abs det) 1 * q_epsilon)%Q in
    let t1 := q_cross p0 q0 q1 q0 in
    if q_lt (t1 * detsign) 0 || q_lt (q_abs det + epsilon) (t1 * detsign) then None else
    if q_lt (q_abs det - epsilon) (t1 * detsign) && q_lt (q_cross p1 q1 q0 q1 * detsign) 0 then None else
    let t2 := q_cross p0 p1 p0 q0 in
    if q_lt (t2 * detsign) 0 || q_lt (q_abs det + epsilon) (t2 * detsign) then None else
    if q_lt (q_abs det - epsilon) (t2 * detsign) && q_lt (q_cross p1 p0 p1 q1 * detsign) 0 then None else
    let t := q_max 0 (q_min 1 (t1 / det)) in
    Some (Qred (fst p0 + (fst p1 - fst p0) * t), Qred (snd p0 + (snd p1 - snd p0) * t))%Q.
Lemma r_exact a b c d det : exact_intersection (inj a) (inj b) (inj c) (inj d) (Q2R det) = option_map inj (q_exact a b c d det).
Proof.
  unfold exact_intersection, q_exact. rewrite r_0 at 1. rewrite r_eq. destruct (Qeq_bool det 0) eqn:Z.
  { rewrite r_cross. rewrite r_0 at 1. rewrite r_eq. destruct (negb _); auto. now rewrite !r_colinear, !r_or. }
  cbv zeta. rewrite !r_cross, !r_abs.
  assert (ND : ~ (det == 0)%Q) by (intros E; apply Qeq_bool_iff in E; congruence).
  assert (Ds : (if rltb (Q2R det) 0 then -1 else 1) = Q2R (if q_lt det 0 then (-1)%Q else 1%Q)).
  { rewrite r_0, r_lt. destruct (q_lt det 0); [apply r_m1 | apply r_1]. }
  rewrite Ds. set (ds := if q_lt det 0 then (-1)%Q else 1%Q).
  assert (Ee : Rmax (Q2R (q_abs det)) 1 * kCrossExactEpsilon = Q2R (q_max (q_abs det) 1 * q_epsilon)).
  { rewrite r_1, r_max, r_epsilon, Q2R_mult. reflexivity. }
  rewrite Ee. unfold bound_to_range. rewrite r_0, r_1. rewrite <- !Q2R_mult, <- !Q2R_plus, <- !Q2R_minus, !r_lt.
  destruct (_ || _); auto. destruct (_ && _); auto. destruct (_ || _); auto. destruct (_ && _); auto.
  cbn [option_map]. f_equal. rewrite <- Q2R_div by auto. rewrite r_min, r_max.
  unfold inj, padd, psub; cbn [fst snd]. rewrite !q_red, !Q2R_plus, !Q2R_mult, !Q2R_minus. reflexivity.
Qed.

(** The loop. *)
Record q_state := { q_p : nat; q_q : nat; q_pi : bool; q_qi : bool; q_points : list qpt }.
Definition inj_state (s : q_state) : state :=
  {| p_idx := q_p s; q_idx := q_q s; p_inside := q_pi s; q_inside := q_qi s; convex_points := map inj (q_points s) |}.
Definition q_at (P : list qpt) (i : nat) : qpt := nth i P (0, 0)%Q.
Definition q_next (P : list qpt) (i : nat) : nat := if Nat.eqb i (List.length P - 1) then 0%nat else S i.
Lemma inj_0 : inj (0, 0)%Q = (0, 0). Proof. unfold inj; cbn [fst snd]. now rewrite <- r_0. Qed.
Lemma r_at P i : at_ (map inj P) i = inj (q_at P i).
Proof. unfold at_, q_at. rewrite <- inj_0. apply map_nth. Qed.
Lemma r_next P i : next (map inj P) i = q_next P i.
Proof. unfold next, q_next. now rewrite map_length. Qed.
Definition q_append (p : qpt) (l : list qpt) : list qpt :=
  match l with
  | [] => [p]
  | f :: _ => if negb (q_peqb p f) && negb (q_peqb p (last l (0, 0)%Q)) then l ++ [p] else l
  end.
Lemma r_last l : last (map inj l) (0, 0) = inj (last l (0, 0)%Q).
Proof.
  induction l as [|a l IH]; [symmetry; apply inj_0|]. destruct l as [|b l]; auto.
Qed.
Lemma r_append p l : append_convex_point (inj p) (map inj l) = map inj (q_append p l).
Proof.
  destruct l as [|f l]; auto. unfold q_append. cbn [map append_convex_point].
  change (inj f :: map inj l) with (map inj (f :: l)). rewrite r_last, !r_peqb.
  destruct (negb _ && negb _); auto. now rewrite map_app.
Qed.
Definition q_advance (P M : list qpt) (det : Q) (s : q_state) : q_state :=
  let p0 := q_at P (q_p s) in let p1 := q_at P (q_next P (q_p s)) in
  let q0 := q_at M (q_q s) in let q1 := q_at M (q_next M (q_q s)) in
  if (if Qle_bool 0 det then q_lt (q_cross q1 q0 p1 q0) 0 else Qle_bool 0 (q_cross p1 p0 q1 p0))
  then {| q_p := q_next P (q_p s); q_q := q_q s; q_pi := q_pi s; q_qi := q_qi s;
          q_points := if q_pi s then q_append p1 (q_points s) else q_points s |}
  else {| q_p := q_p s; q_q := q_next M (q_q s); q_pi := q_pi s; q_qi := q_qi s;
          q_points := if q_qi s then q_append q1 (q_points s) else q_points s |}.
Lemma r_advance P M det s : advance (map inj P) (map inj M) (Q2R det) (inj_state s) = inj_state (q_advance P M det s).
Proof.
  unfold advance, q_advance. cbn [inj_state p_idx q_idx p_inside q_inside convex_points].
  rewrite !r_next, !r_at, !r_cross, r_0, !r_le, !r_lt. rewrite !r_append.
  destruct (if Qle_bool 0 det then _ else _); unfold inj_state; cbn [q_p q_q q_pi q_qi q_points]; f_equal; [destruct (q_pi s) | destruct (q_qi s)]; auto.
Qed.
Definition q_step (P M : list qpt) (s : q_state) : list qpt + q_state :=
  let p0 := q_at P (q_p s) in let p1 := q_at P (q_next P (q_p s)) in
  let q0 := q_at M (q_q s) in let q1 := q_at M (q_next M (q_q s)) in
  let det := q_cross p0 p1 q1 q0 in
  match q_exact p0 p1 q0 q1 det with
  | None => inr (q_advance P M det s)
  | Some inter =>
    if Nat.ltb 2 (List.length (q_points s)) && q_peqb inter (q_at (q_points s) 0) then inl (q_points s) else
      let inside := Qle_bool 0 (q_cross q1 q0 p1 q0) in
      inr (q_advance P M det {| q_p := q_p s; q_q := q_q s; q_pi := inside; q_qi := negb inside; q_points := q_append inter (q_points s) |})
  end.
Definition inj_sum (r : list qpt + q_state) : list pt + state :=
  match r with inl l => inl (map inj l) | inr s => inr (inj_state s) end.
Lemma r_step P M s : step (map inj P) (map inj M) (inj_state s) = inj_sum (q_step P M s).
Proof.
  unfold step, q_step. cbn [inj_state p_idx q_idx convex_points]. rewrite !r_next, !r_at, !r_cross, r_exact.
  destruct (q_exact _ _ _ _ _) as [x|]; cbn [option_map]; [|cbn [inj_sum]; f_equal; apply r_advance].
  rewrite map_length, r_peqb. destruct (Nat.ltb 2 _ && _); auto. cbn [inj_sum]. f_equal.
  rewrite <- r_advance. unfold inj_state. cbn [q_p q_q q_pi q_qi q_points]. rewrite <- r_append. now rewrite r_0, r_le.
Qed.
Inductive q_traversal := QClosed (l : list qpt) | QOpen | QNothing.
Fixpoint q_closing (fuel : nat) (P M : list qpt) (s : q_state) : q_traversal :=
  match fuel with O => QOpen | S f => match q_step P M s with inl l => QClosed l | inr s' => q_closing f P M s' end end.
Fixpoint q_searching (fuel : nat) (P M : list qpt) (s : q_state) : q_traversal :=
  match fuel with
  | O => QNothing
  | S f => match q_step P M s with
    | inl l => QClosed l
    | inr s' => match q_points s' with [] => q_searching f P M s' | _ :: _ => q_closing (List.length P + List.length M) P M s' end
    end
  end.
Definition inj_traversal (t : q_traversal) : traversal :=
  match t with QClosed l => Closed (map inj l) | QOpen => Open | QNothing => Nothing end.
Lemma r_closing P M f : forall s, closing f (map inj P) (map inj M) (inj_state s) = inj_traversal (q_closing f P M s).
Proof. induction f as [|f IH]; intros s; auto. cbn [closing q_closing]. rewrite r_step. destruct (q_step P M s); cbn [inj_sum]; auto. Qed.
Lemma r_searching P M f : forall s, searching f (map inj P) (map inj M) (inj_state s) = inj_traversal (q_searching f P M s).
Proof.
  induction f as [|f IH]; intros s; auto. cbn [searching q_searching]. rewrite r_step. destruct (q_step P M s) as [l|s']; cbn [inj_sum]; auto.
  cbn [inj_state convex_points]. destruct (q_points s') as [|x l] eqn:E; cbn [map]; [apply IH|].
  rewrite !map_length. rewrite <- r_closing. f_equal.
Qed.
Definition q_traverse (P M : list qpt) : q_traversal :=
  q_searching ((List.length P + List.length M) * 2) P M {| q_p := 0; q_q := 0; q_pi := false; q_qi := false; q_points := [] |}.
Theorem r_traverse P M : traverse (map inj P) (map inj M) = inj_traversal (q_traverse P M).
Proof. unfold traverse, q_traverse. rewrite !map_length. rewrite <- r_searching. reflexivity. Qed.
Theorem open_empty P M : q_traverse P M = QOpen -> intersection_vertices (map inj P) (map inj M) = [].
Proof. intros E. unfold intersection_vertices. rewrite r_traverse, E. now destruct (negb _). Qed.
Theorem closed_found P M l z : convex (map inj P) -> convex (map inj M) -> inside (map inj P) z -> inside (map inj M) z ->
  q_traverse P M = QClosed l -> intersection_vertices (map inj P) (map inj M) = map inj l.
Proof.
  intros CP CQ ZP ZQ E. unfold intersection_vertices. rewrite (maybe_complete _ _ z) by auto. cbn [negb]. rewrite r_traverse, E. reflexivity.
Qed.
